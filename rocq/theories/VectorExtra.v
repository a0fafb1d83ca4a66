(** Further facts about ptl::vector used by VectorProps.v. *)
From stdpp Require Import prelude gmap.
From Coq Require Import ZArith Lia.
From Verif Require Import Cpp VectorModel VectorSpec VectorMem VectorProofs VectorOps VectorOps2 VectorOps3 VectorHistory.
Local Open Scope nat_scope.

Section proofs.
Context `{C : VecCfg} (Hcfg : cfg_ok).
Notation block := (list (option V)).
Notation state := (gmap nat (list V)).

(** ** A single call in a valid state *)
Lemma call_ok o w m : wf w m → sstep o m ≠ Bad → step_ok o w m (vexec o w).
Proof. apply vexec_step, Hcfg. Qed.

(** the heap is determined by the objects and their elements *)
Lemma wf_heap_unique w w' m : wf w m → wf w' m → objs w' = objs w → heap w' = heap w.
Proof.
  assert (Hsub : ∀ w w' m b c, wf w m → wf w' m → objs w' = objs w → heap w !! b = Some c → heap w' !! b = Some c).
  { clear w w' m. intros w w' m b c [Hi _] [Hi' _] Ho Hb.
    destruct (inv_own _ _ _ Hi _ _ Hb) as (x & v & Hx & Hv).
    destruct (inv_some _ _ _ Hi _ _ Hx) as (l & Hl & Hr). rewrite <-Ho in Hx.
    destruct (inv_some _ _ _ Hi' _ _ Hx) as (l' & Hl' & Hr'). simplify_eq.
    rewrite (vrep_block _ _ _ _ Hr Hv) in Hb. rewrite (vrep_block _ _ _ _ Hr' Hv). done. }
  intros Hw Hw' Ho. apply map_eq. intros b. destruct (heap w !! b) as [c|] eqn:Hb.
  - by apply (Hsub w w' m).
  - destruct (heap w' !! b) as [c|] eqn:Hb'; [|done].
    rewrite (Hsub w' w m b c) in Hb by done. done.
Qed.

(** ** Programs that allocate nothing *)
Definition quiet {A} (p : M world A) : Prop := ∀ w,
  match p w with Ok _ w' | Exn _ w' => nalloc w' = nalloc w | _ => True end.
Lemma quiet_ret {A} (a : A) : quiet (ret a).
Proof. done. Qed.
Lemma quiet_stuck {A} f : quiet (stuck f : M world A).
Proof. done. Qed.
Lemma quiet_bind {A B} (p : M world A) (k : A → M world B) : quiet p → (∀ a, quiet (k a)) → quiet (bind p k).
Proof.
  intros Hp Hk w. unfold bind. specialize (Hp w). destruct (p w) as [a w'|e w'|f|]; [|done..].
  specialize (Hk a w'). destruct (k a w'); try done; congruence.
Qed.
Lemma quiet_on_exn {A} (p : M world A) (h : M world unit) : quiet p → quiet h → quiet (on_exn p h).
Proof.
  intros Hp Hh w. unfold on_exn. specialize (Hp w). destruct (p w) as [a w'|e w'|f|]; [done| |done|done].
  specialize (Hh w'). destruct (h w'); try done; congruence.
Qed.
Lemma quiet_get_block q : quiet (get_block q).
Proof. intros w. unfold get_block. destruct q.1 as [b|]; [|done]. by destruct (heap w !! b). Qed.
Lemma quiet_put_block b c : quiet (put_block b c).
Proof. done. Qed.
Lemma quiet_get_vec x : quiet (get_vec x).
Proof. intros w. unfold get_vec. by destruct (objs w !! x). Qed.
Lemma quiet_put_vec x v : quiet (put_vec x v).
Proof. done. Qed.
Lemma quiet_rd q : quiet (rd q).
Proof. apply quiet_bind; [apply quiet_get_block|]. intros [b c]. cbn [snd]. by destruct (c !! q.2) as [[?|]|]. Qed.
Lemma quiet_construct q v : quiet (construct q v).
Proof. apply quiet_bind; [apply quiet_get_block|]. intros [b c]. cbn [snd]. by destruct (c !! q.2) as [[?|]|]. Qed.
Lemma quiet_destroy q : quiet (destroy q).
Proof. apply quiet_bind; [apply quiet_get_block|]. intros [b c]. cbn [snd]. by destruct (c !! q.2) as [[?|]|]. Qed.
Lemma quiet_store q v : quiet (store q v).
Proof. apply quiet_bind; [apply quiet_get_block|]. intros [b c]. cbn [snd]. by destruct (c !! q.2) as [[?|]|]. Qed.
Lemma quiet_ctor : quiet ctor.
Proof. intros w. unfold ctor. by destruct (ctor_fails (nctor w)). Qed.
Lemma quiet_destroy_n n : ∀ q, quiet (destroy_n q n).
Proof. induction n; intros q; [done|]. apply quiet_bind; [apply quiet_destroy|done]. Qed.
Lemma quiet_rd_src s : quiet (rd_src s).
Proof. destruct s; [done|apply quiet_rd]. Qed.
Lemma quiet_uninit_loop from q n : ∀ k, quiet (uninit_loop from q k n).
Proof.
  induction n; intros k; [done|]. cbn [uninit_loop]. apply quiet_bind; [|done].
  apply quiet_on_exn; [|apply quiet_destroy_n].
  apply quiet_bind; [apply quiet_rd_src|]. intros a. apply quiet_bind; [apply quiet_ctor|]. intros _. apply quiet_construct.
Qed.
Lemma quiet_uninit from q n : quiet (uninit from q n).
Proof. apply quiet_uninit_loop. Qed.
Lemma quiet_emplace_at s q : quiet (emplace_at s q).
Proof.
  destruct s as [s|p]; cbn [emplace_at].
  - apply quiet_bind; [apply quiet_rd_src|]. intros a. apply quiet_bind; [apply quiet_ctor|]. intros _. apply quiet_construct.
  - apply quiet_bind; [apply quiet_rd|]. intros a. apply quiet_bind; [apply quiet_construct|]. intros _. apply quiet_store.
Qed.
Lemma quiet_rotate p a b c : quiet (rotate p a b c).
Proof.
  unfold rotate. case_match; [done|]. apply quiet_bind; [apply quiet_get_block|]. intros [].
  repeat case_match; done.
Qed.
Definition nalloc_same (w : world) {A} (r : res world A) : Prop :=
  match r with Ok _ w' | Exn _ w' => nalloc w' = nalloc w | _ => True end.
Lemma insert_quiet x off n func w v :
  objs w !! x = Some v → wadd (v_siz v) n ≤ v_cap v → (∀ q, quiet (func q)) →
  nalloc_same w (insert_impl x off n func w).
Proof.
  intros Hx Hfit Hf. unfold insert_impl. erewrite bind_ok by by apply get_vec_eq.
  rewrite (proj2 (Nat.leb_le _ _)) by done. revert w Hx.
  enough (quiet (func (v_ptr v, v_siz v) ;;; rotate (v_ptr v) off (v_siz v) (v_siz v + n) ;;;
                 put_vec x (set_size v (v_siz v + n)) ;;; ret off)) as Hq.
  { intros w _. specialize (Hq w). revert Hq. unfold nalloc_same, bind.
    destruct (func (v_ptr v, v_siz v) w); try done. destruct (rotate _ _ _ _ _); try done. }
  apply quiet_bind; [done|]. intros _. apply quiet_bind; [apply quiet_rotate|]. done.
Qed.
Lemma assign_quiet x n func w v :
  objs w !! x = Some v → wadd (v_siz v) n ≤ v_cap v → (∀ q, quiet (func q)) →
  nalloc_same w (assign_impl x n func w).
Proof.
  intros Hx Hfit Hf. unfold assign_impl. erewrite bind_ok by by apply get_vec_eq.
  rewrite (proj2 (Nat.leb_le _ _)) by done. revert w Hx.
  enough (quiet (func (v_ptr v, v_siz v) ;;; rotate (v_ptr v) 0 (v_siz v) (v_siz v + n) ;;;
                 destroy_n (v_ptr v, n) (v_siz v) ;;; put_vec x (set_size v n))) as Hq.
  { intros w _. apply Hq. }
  apply quiet_bind; [done|]. intros _. apply quiet_bind; [apply quiet_rotate|]. intros _.
  apply quiet_bind; [apply quiet_destroy_n|]. done.
Qed.
Lemma nalloc_obs_nat w p : nalloc_same w (p w) → nalloc_same w (obs_nat p w).
Proof. unfold obs_nat, bind. by destruct (p w). Qed.
Lemma nalloc_obs_unit w p : nalloc_same w (p w) → nalloc_same w (obs_unit p w).
Proof. unfold obs_unit, bind. by destruct (p w). Qed.
Lemma nalloc_after {A B} w (p : M world A) (k : A → M world B) a :
  p w = Ok a w → nalloc_same w (k a w) → nalloc_same w (bind p k w).
Proof. intros H. by rewrite (bind_ok _ _ _ _ _ H). Qed.

Lemma fits_wadd w m x l v n : wf w m → m !! x = Some l → objs w !! x = Some v →
  v_siz v + n ≤ v_cap v → wadd (v_siz v) n ≤ v_cap v.
Proof.
  intros Hw Hl Hx Hfit. pose proof (wf_rep _ _ _ _ _ Hw Hx Hl) as Hr. pose proof (vrep_max _ _ _ Hr).
  pose proof (max_cap_bound Hcfg). rewrite wadd_small by lia. done.
Qed.

(** [x] keeps its buffer and capacity, no other vector changes, nothing is allocated *)
Definition stays (x : nat) (v : vec) (w : world) {A} (r : res world A) : Prop :=
  match r with
  | Ok _ w' => ∃ s, objs w' = <[x:=Vec (v_dealloc v) (v_ptr v) (v_cap v) s]> (objs w) ∧ nalloc w' = nalloc w
  | Exn _ w' => objs w' = objs w ∧ nalloc w' = nalloc w
  | _ => False
  end.
Lemma stays_obs_nat x v w p : stays x v w (p w) → stays x v w (obs_nat p w).
Proof. unfold obs_nat, bind. by destruct (p w). Qed.
Lemma stays_obs_unit x v w p : stays x v w (p w) → stays x v w (obs_unit p w).
Proof. unfold obs_unit, bind. by destruct (p w). Qed.
Lemma stays_run {A} x v w (p : M world A) (Q : A → world → Prop) (Y : exn → world → Prop) :
  run_to p w Q (λ e w', kept w w' ∧ Y e w') → nalloc_same w (p w) →
  (∀ a w', Q a w' → ∃ s, objs w' = <[x:=Vec (v_dealloc v) (v_ptr v) (v_cap v) s]> (objs w)) →
  stays x v w (p w).
Proof.
  unfold run_to, nalloc_same, stays. intros H Hn Hq. destruct (p w) as [a w'|e w'|f|]; try done.
  - destruct (Hq _ _ H) as [s Hs]. eauto.
  - destruct H as [Hk _]. split; [apply Hk|done].
Qed.
Lemma stays_resized {A} x v w (p : M world A) (Q : A → world → Prop) n :
  run_to p w (λ a w', Q a w' ∧ resized x v n w w') never → stays x v w (p w).
Proof.
  unfold run_to, stays. intros H. destruct (p w) as [a w'|e w'|f|]; try done.
  destruct H as (_ & Ho & _ & _ & Ha & _). eexists. split; done.
Qed.
Lemma placed_stays x v k n w w' : placed x v k n w w' → k + n ≤ v_cap v →
  ∃ s, objs w' = <[x:=Vec (v_dealloc v) (v_ptr v) (v_cap v) s]> (objs w).
Proof. intros [(_ & ? & _)|(? & _)] ?; [|lia]. eexists. done. Qed.
Lemma replaced_stays x v k n w w' : replaced x v k n w w' → k + n ≤ v_cap v →
  ∃ s, objs w' = <[x:=Vec (v_dealloc v) (v_ptr v) (v_cap v) s]> (objs w).
Proof. intros [(_ & ? & _)|(? & _)] ?; [|lia]. eexists. done. Qed.

Lemma stays_step o w m x n v : wf w m → sstep o m ≠ Bad → puts o m = Some (x, n) → objs w !! x = Some v →
  v_siz v + n ≤ v_cap v → stays x v w (vexec o w).
Proof.
  intros Hw Hb Hp Hx Hfit.
  destruct (inv_some _ _ _ (proj1 Hw) _ _ Hx) as (l & Hl & Hr). pose proof (vrep_siz _ _ _ Hr) as Hs.
  pose proof (fits_wadd _ _ _ _ _ _ Hw Hl Hx Hfit) as Hwadd.
  assert (Hfit' : length l + n ≤ v_cap v) by lia.
  assert (Hem : ∀ i a r m', semplace m x i a = Done r m' → n = 1 → stays x v w (vec_emplace x i a w)).
  { intros i a r m' Hd ->. destruct (semplace_inv _ _ _ _ _ _ Hd) as (u & m1 & l1 & Ha & Hl1 & Hi & _ & _).
    destruct (after_arg_len _ _ _ _ _ _ Ha Hl1) as (l0 & Hl0 & Hlen). simplify_eq.
    eapply stays_run; [by apply (emplace_run Hcfg x i a u w m m1 l1 v)| |].
    - destruct (bind_earg_eq _ _ _ _ _ Hw Ha) as [s Hbd]. unfold vec_emplace. eapply nalloc_after; [exact Hbd|].
      eapply insert_quiet; [done|done|]. intros; apply quiet_emplace_at.
    - intros r' w' (_ & _ & _ & H). eapply placed_stays; [done|lia]. }
  destruct o as [| | | | | | | | | |x' r|x' k a| |x' a|x' i a|x' i k a|x' i r| |x'|x' i j|x' i| | | | |x'| | | | | | | |];
    cbn [puts] in Hp; try done; cbn [sstep] in Hb; simplify_eq; rewrite ?Hl in Hb; cbn [vexec].
  - (* assign range *)
    destruct (srange m r) as [vs|] eqn:Hrg; [|done].
    destruct (bind_range_eq Hcfg _ _ _ _ Hw Hrg) as (f & Hbr & _ & Hrl & _). rewrite Hrl in *.
    apply stays_obs_unit. eapply stays_run; [by apply (assign_range_run Hcfg x r vs w m l v)| |].
    + unfold vec_assign_range. eapply nalloc_after; [exact Hbr|]. cbn [fst snd].
      eapply assign_quiet; [done|done|]. intros; apply quiet_uninit.
    + intros r' w' (_ & _ & H). eapply replaced_stays; [done|lia].
  - (* assign fill *)
    destruct (sarg m a) as [a'|] eqn:Ha; [|done]. destruct (decide _) as [Hc|]; [|done].
    destruct (bind_arg_eq _ _ _ _ Hw Ha) as (s & Hbr & _).
    apply stays_obs_unit. eapply stays_run; [by apply (assign_fill_run Hcfg x n a a' w m l v)| |].
    + unfold vec_assign_fill. eapply nalloc_after; [exact Hbr|].
      eapply assign_quiet; [done|done|]. intros; apply quiet_uninit.
    + intros r' w' (_ & _ & H). eapply replaced_stays; [done|lia].
  - (* push_back *)
    destruct (semplace_cases m x (length l) a) as [(r & m' & Hd)|]; [|done].
    apply stays_obs_nat. specialize (Hem _ _ _ _ Hd eq_refl).
    destruct (semplace_inv _ _ _ _ _ _ Hd) as (u & m1 & l1 & Ha & Hl1 & Hi & _ & _).
    destruct (bind_earg_eq _ _ _ _ _ Hw Ha) as [s Hbd]. unfold vec_emplace in Hem. unfold vec_push_back.
    erewrite bind_ok in Hem by exact Hbd. erewrite bind_ok by exact Hbd. erewrite bind_ok by by apply get_vec_eq.
    by rewrite Hs.
  - (* emplace *)
    destruct (semplace_cases m x i a) as [(r & m' & Hd)|]; [|done].
    apply stays_obs_nat. by eapply Hem.
  - (* insert fill *)
    destruct (sarg m a) as [a'|] eqn:Ha; [|done]. destruct (decide _) as [[Hi Hc]|]; [|done].
    destruct (bind_arg_eq _ _ _ _ Hw Ha) as (s & Hbr & _).
    apply stays_obs_nat. eapply stays_run; [by apply (insert_fill_run Hcfg x i n a a' w m l v)| |].
    + unfold vec_insert_fill. eapply nalloc_after; [exact Hbr|].
      eapply insert_quiet; [done|done|]. intros; apply quiet_uninit.
    + intros r' w' (_ & _ & _ & H). eapply placed_stays; [done|lia].
  - (* insert range *)
    destruct (srange m r) as [vs|] eqn:Hrg; [|done]. destruct (decide _) as [Hi|]; [|done].
    destruct (bind_range_eq Hcfg _ _ _ _ Hw Hrg) as (f & Hbr & _ & Hrl & _). rewrite Hrl in *.
    apply stays_obs_nat. eapply stays_run; [by apply (insert_range_run Hcfg x i r vs w m l v)| |].
    + unfold vec_insert_range. eapply nalloc_after; [exact Hbr|]. cbn [fst snd].
      eapply insert_quiet; [done|done|]. intros; apply quiet_uninit.
    + intros r' w' (_ & _ & _ & H). eapply placed_stays; [done|lia].
  - (* pop_back *)
    destruct (decide _) as [|Hne]; [done|]. apply stays_obs_unit. eapply stays_resized.
    by apply (pop_back_run x w m l v never).
  - (* erase *)
    destruct (decide _) as [[Hij Hj]|]; [|done]. apply stays_obs_nat. eapply stays_resized.
    eapply run_to_mono; [by apply (erase_run x i j w m l v never)| |done].
    intros r w' (Ha & Hb' & Hc). exact (conj (conj Ha Hb') Hc).
  - (* erase1 *)
    destruct (decide _) as [Hi|]; [|done]. apply stays_obs_nat. unfold vec_erase1. eapply stays_resized.
    eapply run_to_mono; [apply (erase_run x i (i + 1) w m l v never); [done..|lia|lia]| |done].
    intros r w' (Ha & Hb' & Hc). exact (conj (conj Ha Hb') Hc).
  - (* clear *)
    apply stays_obs_unit. eapply stays_resized. by apply (clear_run x w m l v never).
Qed.

(** ** Running off the end of the buffer *)
Lemma uninit_overrun a b c w n : ∀ k,
  (∀ j, ctor_fails j = false) →
  heap w !! b = Some c → ∀ off, off + k ≤ length c → length c < off + k + n →
  (∀ j, off + k ≤ j → j < length c → c !! j = Some None) →
  uninit_loop (λ _, SVal a) (Some b, off) k n w = Stuck OutOfBounds.
Proof.
  revert c w. induction n as [|n IH]; intros c w k Hc Hb off Hle Hlt Hraw; [lia|].
  cbn [uninit_loop].
  destruct (decide (off + k < length c)) as [Hin|Hout].
  - set (w1 := hins b (<[off + k:=Some a]> c)
                 (World (objs w) (heap w) (nextb w) (S (nctor w)) (nalloc w) (nreloc w))).
    assert (Heq : on_exn (v <- rd_src (SVal a);; ctor;;; construct (padd (Some b, off) k) v) (destroy_n (Some b, off) k) w = Ok tt w1).
    { unfold on_exn, bind, rd_src, ret, ctor. rewrite Hc. unfold construct, bind, get_block, padd. cbn [fst snd heap].
      rewrite Hb. cbn [fst snd]. rewrite (Hraw (off + k)) by lia. done. }
    erewrite bind_ok by exact Heq.
    apply (IH (<[off + k:=Some a]> c)); [done|unfold w1; cbn [heap hins with_heap]; by rewrite lookup_insert|..].
    + rewrite insert_length. lia.
    + rewrite insert_length. lia.
    + intros j. rewrite insert_length. intros ??. rewrite list_lookup_insert_ne by lia. apply Hraw; lia.
  - unfold bind at 1. unfold on_exn, bind, rd_src, ret, ctor. rewrite Hc. unfold construct, bind, get_block, padd.
    cbn [fst snd heap]. rewrite Hb. cbn [fst snd]. rewrite (lookup_ge_None_2 c) by lia. done.
Qed.

(** ** Sequences of push_back *)
Lemma vrun_step o os w : vrun (o :: os) w =
  match vexec o w with
  | Ok r w' => match vrun os w' with Finished rs w'' => Finished (r :: rs) w'' | h => h end
  | Exn e w' => match vrun os w' with Finished rs w'' => Finished (OThrew e :: rs) w'' | h => h end
  | Stuck f => Faulted f
  | Terminated => Aborted
  end.
Proof. done. Qed.

(** one push_back, whatever happens *)
Lemma push_cases x a os w m l v :
  wf w m → m !! x = Some l → objs w !! x = Some v → respects (VPushBack x a :: os) w m →
  ∃ r w' m' l' v', wf w' m' ∧ m' !! x = Some l' ∧ objs w' !! x = Some v' ∧ respects os w' m' ∧
    (∀ rs w'', vrun os w' = Finished rs w'' → vrun (VPushBack x a :: os) w = Finished (r :: rs) w'') ∧
    ((length l' = S (length l) ∧ placed x v (length l) 1 w w') ∨
     (length l' = length l ∧ v' = v ∧ nreloc w' = nreloc w ∧ ∃ e, vexec (VPushBack x a) w = Exn e w')).
Proof.
  intros Hw Hl Hx Hr. cbn [respects] in Hr.
  destruct (sstep (VPushBack x a) m) as [|r m'|e] eqn:Hd; [done| |].
  2:{ cbn [sstep] in Hd. rewrite Hl in Hd. destruct (semplace_cases m x (length l) a) as [(?&?&?)|]; congruence. }
  cbn [sstep] in Hd. rewrite Hl in Hd.
  destruct (semplace_inv _ _ _ _ _ _ Hd) as (u & m1 & l1 & Ha & Hl1 & Hi & -> & ->).
  destruct (after_arg_len _ _ _ _ _ _ Ha Hl1) as (l0 & Hl0 & Hlen). rewrite Hl in Hl0. injection Hl0 as <-.
  pose proof (push_back_run Hcfg x a u w m m1 l1 v Hw Ha Hl1 Hx) as Hrun.
  assert (Hex : run_to (vexec (VPushBack x a)) w
     (λ r w', wf w' (<[x:=l1 ++ [u]]> m1) ∧ placed x v (length l1) 1 w w') (λ e w', kept w w')).
  { cbn [vexec]. unfold obs_nat. apply run_to_bind. eapply run_to_mono; [exact Hrun| |].
    - intros r w' (_ & ? & _ & ?). by apply run_to_ret.
    - intros e w' [? _]. done. }
  rewrite <-Hlen in Hex. unfold run_to in Hex.
  destruct (vexec (VPushBack x a) w) as [r w'|e w'|f|] eqn:Hv; [| |done|done].
  - destruct Hex as [Hw' Hp].
    assert (Heq : insert_at (length l) [u] l1 = l1 ++ [u]).
    { unfold insert_at. rewrite Hlen. by rewrite firstn_all, drop_all, app_nil_r. }
    rewrite Heq in Hr. assert (∃ v', objs w' !! x = Some v') as [v' Hv'].
    { destruct (placed_objs _ _ _ _ _ _ Hp) as [v' ->]. exists v'. apply lookup_insert. }
    exists r, w', (<[x:=l1 ++ [u]]> m1), (l1 ++ [u]), v'. sp; [done|apply lookup_insert|done|done| |].
    + intros rs w'' E. rewrite vrun_step, Hv, E. done.
    + left. rewrite app_length, Hlen. cbn [length]. split; [lia|]. by rewrite <-Hlen.
  - exists (OThrew e), w', m, l, v. destruct Hex as (Ho & Hh & Hla & Hnr).
    sp; [eapply kept_wf; [done|unfold kept; done]|done|by rewrite Ho|done| |right; eauto].
    intros rs w'' E. rewrite vrun_step, Hv, E. done.
Qed.

Lemma pushes_stay x (args : list earg) : ∀ w m l v,
  wf w m → m !! x = Some l → objs w !! x = Some v → length l + length args ≤ v_cap v →
  respects (VPushBack x <$> args) w m →
  ∃ rs w' v', vrun (VPushBack x <$> args) w = Finished rs w' ∧ nalloc w' = nalloc w ∧
    objs w' !! x = Some v' ∧ v_ptr v' = v_ptr v ∧ v_cap v' = v_cap v.
Proof.
  induction args as [|a args IH]; intros w m l v Hw Hl Hx Hfit Hr; cbn [fmap list_fmap] in *.
  { exists [], w, v. done. }
  cbn [length] in Hfit.
  destruct (push_cases _ _ _ _ _ _ _ Hw Hl Hx Hr) as (r & w1 & m1 & l1 & v1 & Hw1 & Hl1 & Hx1 & Hr1 & Hgo & Hc).
  assert (Hb : sstep (VPushBack x a) m ≠ Bad) by (intros E; cbn [respects] in Hr; by rewrite E in Hr).
  pose proof (vrep_siz _ _ _ (wf_rep _ _ _ _ _ Hw Hx Hl)) as Hs.
  pose proof (stays_step _ _ _ _ _ _ Hw Hb eq_refl Hx ltac:(lia)) as Hst.
  assert (Hn1 : nalloc w1 = nalloc w ∧ v_ptr v1 = v_ptr v ∧ v_cap v1 = v_cap v).
  { destruct Hc as [(_ & [(_ & Ho & Ha & _)|(Hno & _)])|(_ & -> & _ & e & He)]; [| lia |].
    - rewrite Ho, lookup_insert in Hx1. injection Hx1 as <-. done.
    - rewrite He in Hst. destruct Hst as [_ ?]. done. }
  destruct Hn1 as (Hn & Hp & Hcap).
  destruct (IH w1 m1 l1 v1) as (rs & w' & v' & Hv & ? & ? & ? & ?); [done..| |done|].
  { rewrite Hcap. destruct Hc as [(-> & _)|(-> & _)]; lia. }
  exists (r :: rs), w', v'. sp; [by apply Hgo|congruence..].
Qed.

Lemma pushes_reloc x (args : list earg) R0 c0 : ∀ R w m l v,
  wf w m → m !! x = Some l → objs w !! x = Some v →
  nreloc w = R0 + R → R + c0 ≤ v_cap v → (R = 0 ∨ v_cap v ≤ 2 * length l) →
  respects (VPushBack x <$> args) w m →
  ∃ rs w', vrun (VPushBack x <$> args) w = Finished rs w' ∧ nreloc w' ≤ R0 + 2 * (length l + length args).
Proof.
  induction args as [|a args IH]; intros R w m l v Hw Hl Hx HR Hc Hb Hr; cbn [fmap list_fmap] in *.
  { exists [], w. split; [done|]. cbn [length]. lia. }
  destruct (push_cases _ _ _ _ _ _ _ Hw Hl Hx Hr) as (r & w1 & m1 & l1 & v1 & Hw1 & Hl1 & Hx1 & Hr1 & Hgo & Hcs).
  pose proof (wf_rep _ _ _ _ _ Hw Hx Hl) as Hrep. pose proof (vrep_le _ _ _ Hrep) as Hle.
  assert (Hcap : v_cap v = 0 ∨ 10 ≤ v_cap v).
  { unfold vrep, min_cap in Hrep. destruct (v_ptr v); [right; naive_solver|]. destruct Hrep as [-> _]. by left. }
  assert (∃ R1, nreloc w1 = R0 + R1 ∧ R1 + c0 ≤ v_cap v1 ∧ (R1 = 0 ∨ v_cap v1 ≤ 2 * length l1) ∧ length l1 ≤ S (length l))
    as (R1 & H1 & H2 & H3 & H4).
  { destruct Hcs as [(Hlen & [(Hf & Ho & _ & Hn)|(Hf & Ho & _ & Hn)])|(Hlen & -> & Hn & _)].
    - rewrite Ho, lookup_insert in Hx1. injection Hx1 as <-. cbn [v_cap set_size]. exists R. lia.
    - rewrite Ho, lookup_insert in Hx1. injection Hx1 as <-. cbn [v_cap]. unfold min_cap, grown.
      exists (R + length l). lia.
    - exists R. lia. }
  destruct (IH R1 w1 m1 l1 v1 Hw1 Hl1 Hx1 H1 H2 H3 Hr1) as (rs & w' & Hv & Hle').
  exists (r :: rs), w'. split; [by apply Hgo|]. cbn [length]. lia.
Qed.

Lemma vexec_frame o m r m' z : sstep o m = Done r m' → z ∉ writes o → m' !! z = m !! z.
Proof.
  assert (Hsn : ∀ x l, snew m x l = Done r m' → z ≠ x → m' !! z = m !! z).
  { unfold snew. intros x l H ?. repeat case_match; try done. simplify_eq. by rewrite lookup_insert_ne. }
  assert (Hse : ∀ x i a, semplace m x i a = Done r m' → z ∉ x :: earg_writes a → m' !! z = m !! z).
  { intros x i a H Hz. apply semplace_inv in H as (v & m1 & l & Ha & Hl & _ & _ & ->).
    destruct a as [a|y j]; cbn [after_arg earg_writes] in *.
    - destruct Ha as [_ ->]. rewrite lookup_insert_ne; [done|set_solver].
    - destruct Ha as (ly & _ & _ & ->). rewrite !lookup_insert_ne; [done|set_solver..]. }
  intros Hs Hz.
  destruct o; cbn [sstep writes] in *; unfold sget in *;
    try (by eapply Hsn; [exact Hs|set_solver]); try (by eapply Hse; [exact Hs|set_solver]);
    repeat case_match; simplify_eq; try done; try (by eapply Hse; [exact Hs|set_solver]);
    rewrite ?lookup_insert_ne, ?lookup_delete_ne by set_solver; done.
Qed.
Lemma replay_frame os : ∀ rs m m' z, replay os rs m m' → (∀ o, o ∈ os → z ∉ writes o) → m' !! z = m !! z.
Proof.
  induction os as [|o os IH]; intros rs m m' z Hr Hz; inversion Hr; simplify_eq; [done|..].
  - erewrite IH; [eapply vexec_frame; [done|]|done|]; [apply Hz; by left|intros o' Ho; apply Hz; by right].
  - eapply IH; [done|]. intros o' Ho; apply Hz; by right.
  - eapply IH; [done|]. intros o' Ho; apply Hz; by right.
Qed.

(** ** Oversized requests *)
Lemma storage_new_too_big n w : max_cap < n → storage_new n w = Exn LengthError w.
Proof.
  intros H. unfold storage_new. rewrite (proj2 (Nat.eqb_neq _ _)) by lia.
  rewrite (proj2 (Nat.ltb_lt _ _)) by done. done.
Qed.
Lemma bind_exn {A B} (p : M world A) (k : A → M world B) w e w' : p w = Exn e w' → bind p k w = Exn e w'.
Proof. unfold bind. by intros ->. Qed.
Lemma assign_too_big x n func w m l v :
  wf w m → m !! x = Some l → objs w !! x = Some v → countable l n → max_cap < n →
  assign_impl x n func w = Exn LengthError w.
Proof.
  intros Hw Hl Hx Hc Hn. pose proof (wf_rep _ _ _ _ _ Hw Hx Hl) as Hr.
  pose proof (vrep_siz _ _ _ Hr). pose proof (vrep_max _ _ _ Hr). unfold countable in Hc.
  unfold assign_impl. erewrite bind_ok by by apply get_vec_eq.
  rewrite wadd_small by lia. rewrite (proj2 (Nat.leb_gt _ _)) by lia. by apply bind_exn, storage_new_too_big.
Qed.
Lemma insert_too_big x off n func w m l v :
  wf w m → m !! x = Some l → objs w !! x = Some v → countable l n → v_cap v < length l + n →
  max_cap < grown (length l) n → insert_impl x off n func w = Exn LengthError w.
Proof.
  intros Hw Hl Hx Hc Hn Hg. pose proof (wf_rep _ _ _ _ _ Hw Hx Hl) as Hr.
  pose proof (vrep_siz _ _ _ Hr) as Hs. pose proof (vrep_max _ _ _ Hr). pose proof (vrep_le _ _ _ Hr).
  unfold countable in Hc. pose proof (max_cap_bound Hcfg).
  unfold insert_impl. erewrite bind_ok by by apply get_vec_eq. rewrite Hs.
  destruct (wadd_max (length l) n) as [-> ->]; [lia|].
  rewrite (proj2 (Nat.leb_gt _ _)) by lia. by do 2 apply bind_exn; apply storage_new_too_big.
Qed.
Lemma resize_too_big x n func w m l v :
  wf w m → m !! x = Some l → objs w !! x = Some v → max_cap < n →
  resize_impl x n func w = Exn LengthError w.
Proof.
  intros Hw Hl Hx Hn. pose proof (wf_rep _ _ _ _ _ Hw Hx Hl) as Hr.
  pose proof (vrep_siz _ _ _ Hr) as Hs. pose proof (vrep_max _ _ _ Hr). pose proof (vrep_le _ _ _ Hr).
  unfold resize_impl. erewrite bind_ok by by apply get_vec_eq. rewrite Hs.
  rewrite (proj2 (Nat.eqb_neq _ _)) by lia. rewrite (proj2 (Nat.ltb_ge _ _)) by lia.
  by apply bind_exn, storage_new_too_big.
Qed.
Lemma construct_vec_exn x body w m e :
  wf w m → m !! x = None → body (with_objs (<[x:=null_vec]> (objs w)) w) = Exn e (with_objs (<[x:=null_vec]> (objs w)) w) →
  construct_vec x body w = Exn e w.
Proof.
  intros Hw Hx Hb. pose proof (inv_none _ _ _ _ (proj1 Hw) Hx) as Ho.
  unfold construct_vec, put_vec. erewrite bind_ok by done. unfold on_exn. rewrite Hb.
  unfold vec_destroy. erewrite bind_ok by (apply get_vec_eq; cbn [objs with_objs]; apply lookup_insert).
  erewrite bind_ok by done. unfold del_vec, with_objs. cbn [objs heap nextb nctor nalloc nreloc].
  rewrite delete_insert by done. by destruct w.
Qed.

(** ** size() + count overflows std::size_t *)
Lemma overflow_facts w m x l v n :
  wf w m → m !! x = Some l → objs w !! x = Some v → ¬ countable l n → (Z.of_nat n < 2 ^ Z.of_nat wbits)%Z →
  l ≠ [] ∧ wadd (length l) n ≤ v_cap v ∧ v_cap v < length l + n.
Proof.
  intros Hw Hl Hx Hc Hn. pose proof (wf_rep _ _ _ _ _ Hw Hx Hl) as Hr.
  pose proof (vrep_max _ _ _ Hr). pose proof (vrep_le _ _ _ Hr). pose proof (max_cap_bound Hcfg).
  unfold countable in Hc. split; [intros ->; cbn [length] in *; lia|].
  assert (wadd (length l) n < length l); [|lia].
  unfold wadd. rewrite <-(Z_mod_plus_full _ (-1)). remember (2 ^ Z.of_nat wbits)%Z as W. rewrite Z.mod_small by lia. lia.
Qed.
Lemma overrun w m x l v n u :
  wf w m → m !! x = Some l → objs w !! x = Some v → l ≠ [] → v_cap v < length l + n →
  (∀ k, ctor_fails k = false) →
  uninit (λ _, SVal u) (v_ptr v, length l) n w = Stuck OutOfBounds.
Proof.
  intros Hw Hl Hx Hne Hn Hk. pose proof (wf_rep _ _ _ _ _ Hw Hx Hl) as Hr. pose proof (vrep_le _ _ _ Hr).
  destruct (v_ptr v) as [b|] eqn:Hb; [|by destruct (vrep_none _ _ _ Hr Hb) as [_ ->]].
  pose proof (vrep_block _ _ _ _ Hr Hb) as Hh.
  assert (Hlen : length (cells l (v_cap v)) = v_cap v).
  { unfold cells. rewrite app_length, fmap_length, replicate_length. lia. }
  unfold uninit. eapply uninit_overrun; [done|exact Hh|lia|lia|].
  intros j Hj Hj'. unfold cells. rewrite lookup_app_r by (rewrite fmap_length; lia).
  rewrite fmap_length. apply lookup_replicate. split; [done|lia].
Qed.
Lemma insert_overflow x off n u w m l v :
  wf w m → m !! x = Some l → objs w !! x = Some v → ¬ countable l n → (Z.of_nat n < 2 ^ Z.of_nat wbits)%Z →
  (∀ k, ctor_fails k = false) → vec_insert_fill x off n (CVal u) w = Stuck OutOfBounds.
Proof.
  intros Hw Hl Hx Hc Hn Hk. destruct (overflow_facts _ _ _ _ _ _ Hw Hl Hx Hc Hn) as (Hne & Hfit & Hlt).
  pose proof (vrep_siz _ _ _ (wf_rep _ _ _ _ _ Hw Hx Hl)) as Hs.
  unfold vec_insert_fill. erewrite bind_ok by done. unfold insert_impl. erewrite bind_ok by by apply get_vec_eq.
  rewrite Hs. rewrite (proj2 (Nat.leb_le _ _)) by done. unfold bind at 1 2. by erewrite overrun by done.
Qed.
Lemma assign_overflow x n u w m l v :
  wf w m → m !! x = Some l → objs w !! x = Some v → ¬ countable l n → (Z.of_nat n < 2 ^ Z.of_nat wbits)%Z →
  (∀ k, ctor_fails k = false) → vec_assign_fill x n (CVal u) w = Stuck OutOfBounds.
Proof.
  intros Hw Hl Hx Hc Hn Hk. destruct (overflow_facts _ _ _ _ _ _ Hw Hl Hx Hc Hn) as (Hne & Hfit & Hlt).
  pose proof (vrep_siz _ _ _ (wf_rep _ _ _ _ _ Hw Hx Hl)) as Hs.
  unfold vec_assign_fill. erewrite bind_ok by done. unfold assign_impl. erewrite bind_ok by by apply get_vec_eq.
  rewrite Hs. rewrite (proj2 (Nat.leb_le _ _)) by done. unfold bind at 1. by erewrite overrun by done.
Qed.

(** ** Exhibiting reachable worlds: run the history and look *)
Fixpoint follow (os : list vop) (w : world) (m : state) : option (world * state) :=
  match os with
  | [] => Some (w, m)
  | o :: os' =>
      match sstep o m, vexec o w with
      | Done _ m', Ok _ w' => follow os' w' m'
      | Done _ _, Exn _ w' => follow os' w' m
      | Throws _, Ok _ w' | Throws _, Exn _ w' => follow os' w' m
      | _, _ => None
      end
  end.
Lemma follow_ok os : ∀ w m w' m', wf w m → follow os w m = Some (w', m') →
  respects os w m ∧ ∃ rs, vrun os w = Finished rs w' ∧ replay os rs m m'.
Proof.
  induction os as [|o os IH]; intros w m w' m' Hw Hf; cbn [follow respects] in *.
  { simplify_eq. split; [done|]. exists []. split; [done|constructor]. }
  assert (Hb : sstep o m ≠ Bad) by (intros E; by rewrite E in Hf).
  pose proof (call_ok o w m Hw Hb) as Hs. unfold step_ok in Hs. rewrite vrun_step.
  destruct (sstep o m) as [|r m1|e] eqn:Hd; [done| |]; destruct (vexec o w) as [r' w1|e' w1|f|] eqn:Hx; try done.
  - destruct Hs as (m2 & ? & Hw1 & _). simplify_eq. destruct (IH _ _ _ _ Hw1 Hf) as (? & rs & -> & ?).
    split; [done|]. eexists. split; [done|]. by eapply replay_done.
  - destruct Hs as (Hw1 & _ & _ & [?|He]); [done|]. destruct (IH _ _ _ _ Hw1 Hf) as (? & rs & -> & ?).
    split; [done|]. eexists. split; [done|]. destruct (explained_exn Hcfg _ _ _ _ _ He). by eapply replay_failed.
  - destruct Hs as (m2 & ? & _). done.
  - destruct Hs as (Hw1 & _ & _ & [?|He]); simplify_eq; destruct (IH _ _ _ _ Hw1 Hf) as (? & rs & -> & ?).
    + split; [done|]. eexists. split; [done|]. by eapply replay_throws.
    + split; [done|]. eexists. split; [done|]. destruct (explained_exn Hcfg _ _ _ _ _ He). by eapply replay_failed.
Qed.
Lemma follow_reachable os w m : follow os init_world ∅ = Some (w, m) → reachable w m.
Proof.
  intros Hf. destruct (follow_ok _ _ _ _ _ wf_init Hf) as (? & rs & ? & ?). by exists os, rs.
Qed.
End proofs.
