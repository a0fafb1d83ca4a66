(** One call, and whole histories of calls, against the specification. *)
From stdpp Require Import prelude gmap.
From Coq Require Import ZArith Lia.
From Verif Require Import Cpp VectorModel VectorSpec VectorMem VectorProofs VectorOps VectorOps2 VectorOps3.
Local Open Scope nat_scope.

Section proofs.
Context `{C : VecCfg} (Hcfg : cfg_ok).
Notation state := (gmap nat (list V)).

Definition step_ok (o : vop) (w : world) (m : state) (r : res world vobs) : Prop :=
  match r with
  | Ok r w' => ∃ m', sstep o m = Done r m' ∧ wf w' m' ∧ later w w'
  | Exn e w' => wf w' m ∧ objs w' = objs w ∧ later w w' ∧ (sstep o m = Throws e ∨ explained o m w w' e)
  | Stuck _ => False
  | Terminated => ∃ x, o = VShrink x ∧ alloc_fails (nalloc w) = true
  end.

Lemma step_ok_run o w m :
  run_to (vexec o) w (λ r w', ∃ m', sstep o m = Done r m' ∧ wf w' m' ∧ later w w')
    (λ e w', wf w' m ∧ objs w' = objs w ∧ later w w' ∧ (sstep o m = Throws e ∨ explained o m w w' e)) →
  step_ok o w m (vexec o w).
Proof. unfold run_to, step_ok. by destruct (vexec o w). Qed.

Lemma kept_step o w w' m e : wf w m → acquires o = true → kept w w' → why (demand o m) e w w' →
  wf w' m ∧ objs w' = objs w ∧ later w w' ∧ (sstep o m = Throws e ∨ explained o m w w' e).
Proof.
  intros Hw Ha Hk Hy. sp; [by eapply kept_wf|apply Hk|apply Hk|]. right. split; [done|].
  destruct e; done.
Qed.
Lemma raised_step o w w' m e : acquires o = true →
  wf w' m ∧ objs w' = objs w ∧ later w w' ∧ why (demand o m) e w w' →
  wf w' m ∧ objs w' = objs w ∧ later w w' ∧ (sstep o m = Throws e ∨ explained o m w w' e).
Proof. intros Ha (? & ? & ? & Hy). sp; try done. right. split; [done|]. destruct e; done. Qed.

Lemma slen_eq (m : state) x l : m !! x = Some l → slen m x = length l.
Proof. unfold slen. by intros ->. Qed.

Lemma semplace_inv m x i a r m' : semplace m x i a = Done r m' →
  ∃ v m1 l, after_arg m a v m1 ∧ m1 !! x = Some l ∧ i ≤ length l ∧ r = ONat i ∧ m' = <[x:=insert_at i [v] l]> m1.
Proof.
  destruct a as [a|y j]; cbn [semplace after_arg].
  - destruct (m !! x) as [l|] eqn:Hx; [|done]. destruct (sarg m a) as [v|] eqn:Ha; [|done].
    destruct (decide _); [|done]. intros [= <- <-]. exists v, m, l. done.
  - destruct (m !! y) as [ly|] eqn:Hy; [|done]. destruct (ly !! j) as [v|] eqn:Hj; [|done].
    destruct (<[y:=<[j:=moved v]> ly]> m !! x) as [l|] eqn:Hx; [|done].
    destruct (decide _); [|done]. intros [= <- <-]. exists v, (<[y:=<[j:=moved v]> ly]> m), l.
    sp; try done. eauto.
Qed.
Lemma semplace_cases m x i a : (∃ r m', semplace m x i a = Done r m') ∨ semplace m x i a = Bad.
Proof.
  destruct a as [a|y j]; cbn [semplace]; repeat case_match; eauto.
Qed.

Ltac obs := unfold obs_unit, obs_nat, obs_val, obs_bool; apply run_to_bind.
Ltac use_run H := eapply run_to_mono; [apply H; done| |].
Ltac fin := apply run_to_ret; eexists; sp; [reflexivity|done|done].

Lemma vexec_step o w m : wf w m → sstep o m ≠ Bad → step_ok o w m (vexec o w).
Proof.
  intros Hw Hb.
  destruct o as [x|x r|x y|x y|x vs|x n|x n a|x|x y|x y|x r|x n a|x vs|x a|x i a|x i n a|x i r|x i vs
                |x|x i j|x i|x n|x n|x n a|x|x|x y|x i v|x i|x i|x|x|x|x];
    cbn [sstep] in Hb.
  - (* VNew *) unfold snew in Hb. destruct (m !! x) eqn:Hx; [done|].
    apply step_ok_run. cbn [vexec sstep]. unfold snew. rewrite Hx. obs.
    unfold vec_new, put_vec. eapply run_to_eq; [done|]. apply run_to_ret. eexists. sp; [reflexivity|by apply wf_new|].
    unfold later; cbn; lia.
  - (* VNewRange *) unfold snew in Hb. destruct (m !! x) eqn:Hx; [done|].
    destruct (srange m r) as [vs|] eqn:Hr; [|done].
    apply step_ok_run. cbn [vexec]. obs. use_run (new_range_run Hcfg x r vs w m).
    + intros _ w' (? & ? & _). apply run_to_ret. cbn [sstep]. unfold snew. rewrite Hx, Hr. eauto.
    + intros e w' H. apply raised_step; [done|]. cbn [demand].
      destruct (bind_range_eq Hcfg _ _ _ _ Hw Hr) as (_ & _ & _ & -> & _). done.
  - (* VNewCopy *) unfold snew in Hb. destruct (m !! x) eqn:Hx; [done|]. destruct (m !! y) as [l|] eqn:Hy; [|done].
    apply step_ok_run. cbn [vexec]. obs. unfold vec_new_copy.
    destruct (wf_get _ _ _ _ Hw Hy) as (u & Hu & Hru).
    eapply run_to_bind_ok; [by apply get_vec_eq|]. rewrite (vrep_siz _ _ _ Hru).
    eapply run_to_mono; [apply (new_range_run Hcfg x _ l w m Hw Hx); by apply srange_all|..].
    + intros _ w' (? & ? & _). apply run_to_ret. cbn [sstep]. unfold snew. rewrite Hx, Hy. eauto.
    + intros e w' H. apply raised_step; [done|]. cbn [demand]. by rewrite (slen_eq _ _ _ Hy).
  - (* VNewMove *) destruct (m !! x) eqn:Hx; [done|]. destruct (m !! y) as [l|] eqn:Hy; [|done].
    destruct (wf_get _ _ _ _ Hw Hy) as (u & Hu & Hru).
    apply step_ok_run. cbn [vexec]. obs.
    eapply run_to_mono; [apply (new_move_run x y w m l u never); done| |done].
    intros _ w' (? & ? & _). apply run_to_ret. cbn [sstep]. rewrite Hx, Hy. eauto.
  - (* VNewInput *) unfold snew in Hb. destruct (m !! x) eqn:Hx; [done|].
    apply step_ok_run. cbn [vexec]. obs. use_run (new_input_run Hcfg x vs w m).
    + intros _ w' (? & ? & _). apply run_to_ret. cbn [sstep]. unfold snew. rewrite Hx. eauto.
    + intros e w' H. by apply raised_step.
  - (* VNewCount *) unfold snew in Hb. destruct (m !! x) eqn:Hx; [done|].
    apply step_ok_run. cbn [vexec]. obs. use_run (new_count_run Hcfg x n w m).
    + intros _ w' (? & ? & _). apply run_to_ret. cbn [sstep]. unfold snew. rewrite Hx. eauto.
    + intros e w' H. by apply raised_step.
  - (* VNewFill *) unfold snew in Hb. destruct (m !! x) eqn:Hx; [done|].
    destruct (sarg m a) as [a'|] eqn:Ha; [|done].
    apply step_ok_run. cbn [vexec]. obs. use_run (new_fill_run Hcfg x n a a' w m).
    + intros _ w' (? & ? & _). apply run_to_ret. cbn [sstep]. unfold snew. rewrite Hx, Ha. eauto.
    + intros e w' H. by apply raised_step.
  - (* VDestroy *) destruct (m !! x) as [l|] eqn:Hx; [|done].
    destruct (wf_get _ _ _ _ Hw Hx) as (u & Hu & Hru).
    apply step_ok_run. cbn [vexec]. obs.
    eapply run_to_mono; [apply (destroy_run x w m l u never); done| |done].
    intros _ w' (? & ? & _). apply run_to_ret. cbn [sstep]. rewrite Hx. eauto.
  - (* VCopyAssign *) destruct (m !! x) as [l|] eqn:Hx; [|done]. destruct (m !! y) as [k|] eqn:Hy; [|done].
    destruct (wf_get _ _ _ _ Hw Hx) as (u & Hu & Hru).
    apply step_ok_run. cbn [vexec]. obs. use_run (copy_assign_run Hcfg x y w m l k u).
    + intros _ w' (? & ? & _). apply run_to_ret. cbn [sstep]. rewrite Hx, Hy. eauto.
    + intros e w' [? ?]. apply kept_step; [done..|]. cbn [demand]. by rewrite (slen_eq _ _ _ Hy).
  - (* VMoveAssign *) destruct (m !! x) as [l|] eqn:Hx; [|done]. destruct (m !! y) as [k|] eqn:Hy; [|done].
    destruct (wf_get _ _ _ _ Hw Hx) as (u & Hu & Hru). destruct (wf_get _ _ _ _ Hw Hy) as (u' & Hu' & Hru').
    apply step_ok_run. cbn [vexec]. obs.
    eapply run_to_mono; [apply (move_assign_run x y w m l k u u' never); done| |done].
    intros _ w' (? & ? & _). apply run_to_ret. cbn [sstep]. rewrite Hx, Hy. eauto.
  - (* VAssignRange *) destruct (m !! x) as [l|] eqn:Hx; [|done]. destruct (srange m r) as [vs|] eqn:Hr; [|done].
    destruct (wf_get _ _ _ _ Hw Hx) as (u & Hu & Hru).
    apply step_ok_run. cbn [vexec]. obs. use_run (assign_range_run Hcfg x r vs w m l u).
    + intros _ w' (? & ? & _). apply run_to_ret. cbn [sstep]. rewrite Hx, Hr. eauto.
    + intros e w' [? ?]. apply kept_step; [done..|]. cbn [demand].
      destruct (bind_range_eq Hcfg _ _ _ _ Hw Hr) as (_ & _ & _ & -> & _). done.
  - (* VAssignFill *) destruct (m !! x) as [l|] eqn:Hx; [|done]. destruct (sarg m a) as [a'|] eqn:Ha; [|done].
    destruct (decide (countable l n)) as [Hc|]; [|done].
    destruct (wf_get _ _ _ _ Hw Hx) as (u & Hu & Hru).
    apply step_ok_run. cbn [vexec]. obs. use_run (assign_fill_run Hcfg x n a a' w m l u).
    + intros _ w' (? & ? & _). apply run_to_ret. cbn [sstep]. rewrite Hx, Ha, decide_True by done. eauto.
    + intros e w' [? ?]. by apply kept_step.
  - (* VAssignInput *) destruct (m !! x) as [l|] eqn:Hx; [|done].
    apply step_ok_run. cbn [vexec]. obs. use_run (assign_input_run Hcfg x vs w m l).
    + intros _ w' (? & ?). apply run_to_ret. cbn [sstep]. rewrite Hx. eauto.
    + intros e w' H. by apply raised_step.
  - (* VPushBack *) destruct (m !! x) as [l0|] eqn:Hx; [|done].
    destruct (semplace_cases m x (length l0) a) as [(r & m' & Hd)|]; [|done].
    destruct (semplace_inv _ _ _ _ _ _ Hd) as (v & m1 & l & Ha & Hl & Hi & -> & ->).
    destruct (after_arg_len _ _ _ _ _ _ Ha Hl) as (l0' & Hl0' & Hlen). assert (l0' = l0) as -> by congruence. clear Hl0'; rename Hx into Hl0'.
    destruct (wf_get _ _ _ _ Hw Hl0') as (u & Hu & Hru).
    apply step_ok_run. cbn [vexec]. obs. use_run (push_back_run Hcfg x a v w m m1 l u).
    + intros r w' (-> & ? & ? & _). apply run_to_ret. cbn [sstep]. rewrite Hl0', Hd, Hlen.
      eexists. split; [reflexivity|]. split; [|done].
      unfold insert_at. by rewrite firstn_all, drop_all, app_nil_r.
    + intros e w' [? ?]. apply kept_step; [done..|]. cbn [demand]. by rewrite (slen_eq _ _ _ Hl0'), Hlen.
  - (* VEmplace *)
    destruct (semplace_cases m x i a) as [(r & m' & Hd)|]; [|done].
    destruct (semplace_inv _ _ _ _ _ _ Hd) as (v & m1 & l & Ha & Hl & Hi & -> & ->).
    destruct (after_arg_len _ _ _ _ _ _ Ha Hl) as (l0' & Hl0' & Hlen).
    destruct (wf_get _ _ _ _ Hw Hl0') as (u & Hu & Hru).
    apply step_ok_run. cbn [vexec]. obs. use_run (emplace_run Hcfg x i a v w m m1 l u).
    + intros r w' (-> & ? & ? & _). apply run_to_ret. cbn [sstep]. rewrite Hd. eauto.
    + intros e w' [? ?]. apply kept_step; [done..|]. cbn [demand]. by rewrite (slen_eq _ _ _ Hl0'), Hlen.
  - (* VInsertFill *) destruct (m !! x) as [l|] eqn:Hx; [|done]. destruct (sarg m a) as [a'|] eqn:Ha; [|done].
    destruct (decide _) as [[Hi Hc]|]; [|done].
    destruct (wf_get _ _ _ _ Hw Hx) as (u & Hu & Hru).
    apply step_ok_run. cbn [vexec]. obs. use_run (insert_fill_run Hcfg x i n a a' w m l u).
    + intros r w' (-> & ? & ? & _). apply run_to_ret. cbn [sstep]. rewrite Hx, Ha, decide_True by done. eauto.
    + intros e w' [? ?]. apply kept_step; [done..|]. cbn [demand]. by rewrite (slen_eq _ _ _ Hx).
  - (* VInsertRange *) destruct (m !! x) as [l|] eqn:Hx; [|done]. destruct (srange m r) as [vs|] eqn:Hr; [|done].
    destruct (decide _) as [Hi|]; [|done].
    destruct (wf_get _ _ _ _ Hw Hx) as (u & Hu & Hru).
    apply step_ok_run. cbn [vexec]. obs. use_run (insert_range_run Hcfg x i r vs w m l u).
    + intros ? w' (-> & ? & ? & _). apply run_to_ret. cbn [sstep]. rewrite Hx, Hr, decide_True by done. eauto.
    + intros e w' [? ?]. apply kept_step; [done..|]. cbn [demand]. rewrite (slen_eq _ _ _ Hx).
      destruct (bind_range_eq Hcfg _ _ _ _ Hw Hr) as (_ & _ & _ & -> & _). done.
  - (* VInsertInput *) destruct (m !! x) as [l|] eqn:Hx; [|done].
    destruct (decide _) as [Hi|]; [|done].
    apply step_ok_run. cbn [vexec]. obs. use_run (insert_input_run Hcfg x i vs w m l).
    + intros r w' (-> & ? & ?). apply run_to_ret. cbn [sstep]. rewrite Hx, decide_True by done. eauto.
    + intros e w' H. apply raised_step; [done|]. cbn [demand]. by rewrite (slen_eq _ _ _ Hx).
  - (* VPopBack *) destruct (m !! x) as [l|] eqn:Hx; [|done]. destruct (decide _) as [|Hne]; [done|].
    destruct (wf_get _ _ _ _ Hw Hx) as (u & Hu & Hru).
    apply step_ok_run. cbn [vexec]. obs.
    eapply run_to_mono; [apply (pop_back_run x w m l u never); done| |done].
    intros _ w' (? & Hrs). apply run_to_ret. cbn [sstep]. rewrite Hx, decide_False by done.
    eauto using resized_later.
  - (* VErase *) destruct (m !! x) as [l|] eqn:Hx; [|done]. destruct (decide _) as [[Hij Hj]|]; [|done].
    destruct (wf_get _ _ _ _ Hw Hx) as (u & Hu & Hru).
    apply step_ok_run. cbn [vexec]. obs.
    eapply run_to_mono; [apply (erase_run x i j w m l u never); done| |done].
    intros r w' (-> & ? & Hrs). apply run_to_ret. cbn [sstep]. rewrite Hx, (decide_True (P := i ≤ j ∧ j ≤ length l)) by done.
    eauto using resized_later.
  - (* VErase1 *) destruct (m !! x) as [l|] eqn:Hx; [|done]. destruct (decide _) as [Hi|]; [|done].
    destruct (wf_get _ _ _ _ Hw Hx) as (u & Hu & Hru).
    apply step_ok_run. cbn [vexec]. obs. unfold vec_erase1.
    eapply run_to_mono; [apply (erase_run x i (i + 1) w m l u never); [done..|lia|lia]| |done].
    intros r w' (-> & Hw' & Hrs). apply run_to_ret. cbn [sstep]. rewrite Hx, (decide_True (P := i < length l)) by done.
    rewrite decide_False in Hw' by lia. rewrite Nat.add_1_r in Hw'. eauto using resized_later.
  - (* VReserve *) destruct (m !! x) as [l|] eqn:Hx; [|done].
    destruct (wf_get _ _ _ _ Hw Hx) as (u & Hu & Hru).
    apply step_ok_run. cbn [vexec]. obs. use_run (reserve_run Hcfg x n w m l u).
    + intros _ w' (? & ? & _). apply run_to_ret. cbn [sstep]. rewrite Hx. eauto.
    + intros e w' (_ & ? & ?). by apply kept_step.
  - (* VResize *) destruct (m !! x) as [l|] eqn:Hx; [|done].
    destruct (wf_get _ _ _ _ Hw Hx) as (u & Hu & Hru).
    apply step_ok_run. cbn [vexec]. obs. use_run (resize_run Hcfg x n w m l u).
    + intros _ w' (? & ? & _). apply run_to_ret. cbn [sstep]. rewrite Hx. eauto.
    + intros e w' (_ & ? & ?). by apply kept_step.
  - (* VResizeFill *) destruct (m !! x) as [l|] eqn:Hx; [|done]. destruct (sarg m a) as [a'|] eqn:Ha; [|done].
    destruct (wf_get _ _ _ _ Hw Hx) as (u & Hu & Hru).
    apply step_ok_run. cbn [vexec]. obs. use_run (resize_fill_run Hcfg x n a a' w m l u).
    + intros _ w' (? & ? & _). apply run_to_ret. cbn [sstep]. rewrite Hx, Ha. eauto.
    + intros e w' (_ & ? & ?). by apply kept_step.
  - (* VShrink *) destruct (m !! x) as [l|] eqn:Hx; [|done].
    destruct (wf_get _ _ _ _ Hw Hx) as (u & Hu & Hru).
    assert (Hcase : (v_cap u ≤ 2 * length l ∨ l = [] ∨ alloc_fails (nalloc w) = false) ∨
                    (2 * length l < v_cap u ∧ l ≠ [] ∧ alloc_fails (nalloc w) = true)).
    { destruct (decide (v_cap u ≤ 2 * length l)); [eauto|]. destruct (decide (l = [])); [eauto|].
      destruct (alloc_fails (nalloc w)) eqn:?; [right|]; eauto. sp; [lia|done|done]. }
    destruct Hcase as [Hok|(Hlt & Hne & Hal)].
    + apply step_ok_run. cbn [vexec]. obs.
      eapply run_to_mono; [apply (shrink_run Hcfg x w m l u never); done| |done].
      intros _ w' (? & ? & _). apply run_to_ret. cbn [sstep]. rewrite Hx. eauto.
    + cbn [vexec]. unfold obs_unit, bind. rewrite (shrink_terminates Hcfg x w m l u) by done.
      cbn [step_ok]. eauto.
  - (* VClear *) destruct (m !! x) as [l|] eqn:Hx; [|done].
    destruct (wf_get _ _ _ _ Hw Hx) as (u & Hu & Hru).
    apply step_ok_run. cbn [vexec]. obs.
    eapply run_to_mono; [apply (clear_run x w m l u never); done| |done].
    intros _ w' (? & Hrs). apply run_to_ret. cbn [sstep]. rewrite Hx. eauto using resized_later.
  - (* VSwap *) destruct (m !! x) as [l|] eqn:Hx; [|done]. destruct (m !! y) as [k|] eqn:Hy; [|done].
    destruct (wf_get _ _ _ _ Hw Hx) as (u & Hu & Hru). destruct (wf_get _ _ _ _ Hw Hy) as (u' & Hu' & Hru').
    apply step_ok_run. cbn [vexec]. obs.
    eapply run_to_mono; [apply (swap_run x y w m l k u u' never); done| |done].
    intros _ w' (? & ? & _). apply run_to_ret. cbn [sstep]. rewrite Hx, Hy. eauto.
  - (* VSet *) destruct (m !! x) as [l|] eqn:Hx; [|done]. destruct (decide _) as [Hi|]; [|done].
    apply step_ok_run. cbn [vexec]. obs.
    eapply run_to_mono; [apply (set_run w m x l i v never); done| |done].
    intros _ w' (? & ? & _). apply run_to_ret. cbn [sstep]. rewrite Hx, decide_True by done. eauto.
  - (* VAt *) destruct (m !! x) as [l|] eqn:Hx; [|done].
    destruct (wf_get _ _ _ _ Hw Hx) as (u & Hu & Hru).
    apply step_ok_run. cbn [vexec sstep]. rewrite Hx. obs. unfold vec_at.
    eapply run_to_bind_ok; [by apply get_vec_eq|]. rewrite (vrep_siz _ _ _ Hru).
    destruct (l !! i) as [a|] eqn:Hi.
    + pose proof (lookup_lt_Some _ _ _ Hi). rewrite (proj2 (Nat.leb_gt _ _)) by lia.
      eapply run_to_eq; [by eapply index_eq|]. apply run_to_ret. eauto using later_refl.
    + apply lookup_ge_None in Hi. rewrite (proj2 (Nat.leb_le _ _)) by lia. unfold run_to, throw. cbn.
      eauto using later_refl.
  - (* VIndex *) unfold sget in Hb. destruct (m !! x) as [l|] eqn:Hx; [|done]. destruct (l !! i) as [a|] eqn:Hi; [|done].
    apply step_ok_run. cbn [vexec sstep]. unfold sget. rewrite Hx, Hi. obs.
    eapply run_to_eq; [by eapply index_eq|]. apply run_to_ret. eauto using later_refl.
  - (* VFront *) unfold sget in Hb. destruct (m !! x) as [l|] eqn:Hx; [|done]. destruct (l !! 0) as [a|] eqn:Hi; [|done].
    apply step_ok_run. cbn [vexec sstep]. unfold sget. rewrite Hx, Hi. obs. unfold vec_front.
    eapply run_to_eq; [by eapply index_eq|]. apply run_to_ret. eauto using later_refl.
  - (* VBack *) unfold sget in Hb. destruct (m !! x) as [l|] eqn:Hx; [|done].
    destruct (l !! (length l - 1)) as [a|] eqn:Hi; [|done].
    destruct (wf_get _ _ _ _ Hw Hx) as (u & Hu & Hru).
    apply step_ok_run. cbn [vexec sstep]. unfold sget. rewrite Hx, Hi. obs. unfold vec_back.
    eapply run_to_bind_ok; [by apply get_vec_eq|]. rewrite (vrep_siz _ _ _ Hru).
    eapply run_to_eq; [by eapply index_eq|]. apply run_to_ret. eauto using later_refl.
  - (* VSize *) destruct (m !! x) as [l|] eqn:Hx; [|done].
    destruct (wf_get _ _ _ _ Hw Hx) as (u & Hu & Hru).
    apply step_ok_run. cbn [vexec sstep]. rewrite Hx. obs. unfold vec_size.
    eapply run_to_bind_ok; [by apply get_vec_eq|]. rewrite (vrep_siz _ _ _ Hru).
    do 2 apply run_to_ret. eauto using later_refl.
  - (* VEmpty *) destruct (m !! x) as [l|] eqn:Hx; [|done].
    destruct (wf_get _ _ _ _ Hw Hx) as (u & Hu & Hru).
    apply step_ok_run. cbn [vexec sstep]. rewrite Hx. obs. unfold vec_empty, vec_size.
    apply run_to_bind. eapply run_to_bind_ok; [by apply get_vec_eq|]. rewrite (vrep_siz _ _ _ Hru).
    do 3 apply run_to_ret. replace (length l =? 0) with (bool_decide (l = [])) by (by destruct l).
    eauto using later_refl.
Qed.

Lemma wf_init : wf init_world ∅.
Proof. split; [split|]; cbn [objs heap init_world]; intros; by simplify_map_eq. Qed.

Lemma wf_shows w m : wf w m → shows w m.
Proof.
  intros Hw x. destruct (m !! x) as [l|] eqn:Hx.
  - destruct (wf_get _ _ _ _ Hw Hx) as (v & Hv & Hr). split.
    + unfold vec_size. erewrite bind_ok by by apply get_vec_eq. by rewrite (vrep_siz _ _ _ Hr).
    + intros i a Hi. by eapply index_eq.
  - eapply inv_none; [apply (proj1 Hw)|done].
Qed.

Lemma explained_exn o m w w' e : explained o m w w' e → acquires o = true ∧ e ∈ [BadAlloc; LengthError; ElementThrow].
Proof. intros [? He]. split; [done|]. destruct e; try done; set_solver. Qed.

Lemma vrun_ok os : ∀ w m, wf w m → respects os w m →
  match vrun os w with
  | Finished rs w' => ∃ m', replay os rs m m' ∧ wf w' m' ∧ later w w'
  | Faulted _ => False
  | Aborted => ∃ x k, VShrink x ∈ os ∧ alloc_fails k = true
  end.
Proof.
  induction os as [|o os IH]; intros w m Hw Hr; cbn [vrun respects] in *.
  { exists m. sp; [constructor|done|apply later_refl]. }
  assert (Hb : sstep o m ≠ Bad) by (intros E; by rewrite E in Hr).
  pose proof (vexec_step o w m Hw Hb) as Hs. unfold step_ok in Hs.
  destruct (vexec o w) as [r w'|e w'|f|] eqn:Hx.
  - destruct Hs as (m' & Hd & Hw' & Hl). rewrite Hd in Hr. specialize (IH w' m' Hw' Hr).
    destruct (vrun os w') as [rs w''|f|].
    + destruct IH as (m'' & Hp & Hw'' & Hl'). exists m''. sp; [|done|by eapply later_trans].
      by eapply replay_done.
    + done.
    + destruct IH as (x & k & ? & ?). exists x, k. split; [by right|done].
  - destruct Hs as (Hw' & _ & Hl & Hwhy).
    assert (Hr' : respects os w' m) by (by destruct (sstep o m)).
    specialize (IH w' m Hw' Hr'). destruct (vrun os w') as [rs w''|f|].
    + destruct IH as (m'' & Hp & Hw'' & Hl'). exists m''. sp; [|done|by eapply later_trans].
      destruct Hwhy as [Ht|He]; [by apply replay_throws|].
      destruct (explained_exn _ _ _ _ _ He). by apply replay_failed.
    + done.
    + destruct IH as (x & k & ? & ?). exists x, k. split; [by right|done].
  - done.
  - destruct Hs as (x & -> & Hal). exists x, (nalloc w). split; [by left|done].
Qed.

Lemma vrun_exact os : ∀ w m rs m',
  (∀ k, alloc_fails k = false) → (∀ k, ctor_fails k = false) →
  wf w m → srun os m = Some (rs, m') → fits os m →
  ∃ w', vrun os w = Finished rs w' ∧ wf w' m'.
Proof.
  induction os as [|o os IH]; intros w m rs m' Ha Hc Hw Hr Hf; cbn [vrun srun fits] in *.
  { simplify_eq. eauto. }
  destruct Hf as [Hd Hf].
  assert (Hb : sstep o m ≠ Bad) by (intros E; by rewrite E in Hr).
  pose proof (vexec_step o w m Hw Hb) as Hs. unfold step_ok in Hs.
  destruct (vexec o w) as [r w1|e w1|f|] eqn:Hx.
  - destruct Hs as (m1 & Hd1 & Hw1 & Hl). rewrite Hd1 in Hr, Hf.
    destruct (srun os m1) as [[rs1 m2]|] eqn:Hr1; [|done]. simplify_eq.
    destruct (IH w1 m1 rs1 m' Ha Hc Hw1 Hr1 Hf) as (w' & -> & Hw'). eauto.
  - destruct Hs as (Hw1 & _ & Hl & [Ht|He]).
    + rewrite Ht in Hr, Hf.
      destruct (srun os m) as [[rs1 m2]|] eqn:Hr1; [|done]. simplify_eq.
      destruct (IH w1 m rs1 m' Ha Hc Hw1 Hr1 Hf) as (w' & -> & Hw'). eauto.
    + exfalso. destruct He as [_ He]. destruct e; try done; [lia|..].
      * destruct He as (k & _ & Hk). by rewrite Ha in Hk.
      * destruct He as (k & _ & Hk). by rewrite Hc in Hk.
  - done.
  - destruct Hs as (x & _ & Hal). by rewrite Ha in Hal.
Qed.

Lemma replay_det os : ∀ rs m m1 m2, replay os rs m m1 → replay os rs m m2 → m1 = m2.
Proof.
  assert (Hno : ∀ o m e m', sstep o m ≠ Done (OThrew e) m').
  { intros o m e m' H.
    assert (∀ x i a, semplace m x i a ≠ Done (OThrew e) m') as Hse.
    { intros x i a Hs. apply semplace_inv in Hs as (? & ? & ? & _ & _ & _ & ? & _). done. }
    destruct o; cbn [sstep] in H; unfold snew, sget in H; repeat case_match; try done; by eapply Hse. }
  induction os as [|o os IH]; intros rs m m1 m2 H1 H2; inversion H1; subst; inversion H2; subst; [done|..];
    repeat match goal with
    | H : sstep ?o ?m = Done (OThrew ?e) ?m' |- _ => exfalso; exact (Hno o m e m' H)
    | H : sstep ?o ?m = _, H' : sstep ?o ?m = _ |- _ => rewrite H in H'; simplify_eq
    end; eauto.
Qed.
Lemma reachable_wf w m : reachable w m → wf w m.
Proof.
  intros (os & rs & Hr & Hv & Hp). pose proof (vrun_ok os _ _ wf_init Hr) as H. rewrite Hv in H.
  destruct H as (m' & Hp' & Hw & _). by rewrite (replay_det _ _ _ _ _ Hp Hp').
Qed.
End proofs.
