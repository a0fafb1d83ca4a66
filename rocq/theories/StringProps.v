(** Properties C29-C42 and C65: string.

    Everything is stated for an arbitrary pointer size, an arbitrary width of std::size_t and
    arbitrary failures of allocation ([StrCfg]), restricted only by the static_asserts of
    string.hpp:27 and 92 and by the smallest heap buffer being allocatable ([cfg_ok]).
    [reachable w m]: some history of calls within their contracts, starting from no strings,
    led to the world [w], and the same history on plain sequences yields [m]. [shows w m]:
    size() and c_str() answer [m]. *)
From stdpp Require Import prelude gmap.
From Coq Require Import NArith ZArith Lia.
From Verif Require Import Cpp StringModel StringSpec StringMem StringRep StringOps StringOps2 StringOps3
  StringHistory StringExtra StringLimits StringOrder StringOrderProofs.
Local Open Scope nat_scope.

(** a configuration for the examples: 8-bit std::size_t, 2-byte pointers; the inline capacity
    is 4, the smallest heap capacity 12, max_size() is 126 *)
Definition cfg (af : nat → bool) : StrCfg := {| psz := 2; wbits := 8; alloc_fails := af; running := λ b, b mod 2 |}.
Notation never_fails := (λ _ : nat, false).
Notation good := (cfg never_fails).
Lemma cfg_is_ok af : @cfg_ok (cfg af).
Proof.
  unfold cfg_ok. split; [cbn; lia|]. split; [done|]. split; [cbn; lia|]. split; [cbn; lia|].
  apply Nat.leb_le. by vm_compute.
Qed.

Section props.
Context `{C : StrCfg} (Hcfg : cfg_ok).
Notation state := (gmap nat (list char)).

Lemma reachable_valid w m : reachable w m → wf w m.
Proof. apply reachable_wf, Hcfg. Qed.

(** ** C29 *)
Theorem C29_string_history os :
  respects os init_world ∅ →
  ∃ rs w m, srun os init_world = Finished rs w ∧ replay false os rs ∅ m ∧ shows w m.
Proof.
  intros Hr. destruct (srun_ok Hcfg os _ _ wf_init Hr) as (rs & w & m & E & Hp & Hw & _).
  exists rs, w, m. sp; [done|done|by apply wf_shows].
Qed.
(** with no failing allocation and no demand above what a block can hold, only the caller's
    iterators and at() throw, and everything else has its effect *)
Theorem C29_string_exact os :
  (∀ k, alloc_fails k = false) → respects os init_world ∅ → fits os init_world ∅ →
  ∃ rs w m, srun os init_world = Finished rs w ∧ replay true os rs ∅ m ∧ shows w m.
Proof.
  intros Ha Hr Hf. destruct (srun_exact Hcfg os _ _ Ha wf_init Hr Hf) as (rs & w & m & E & Hp & Hw).
  exists rs, w, m. sp; [done|done|by apply wf_shows].
Qed.
(** strings not mentioned by a history keep their characters *)
Theorem C29_string_independence w m os :
  reachable w m → respects os w m →
  ∃ rs w' m', srun os w = Finished rs w' ∧ shows w' m' ∧
    ∀ z, (∀ o, o ∈ os → z ∉ writes o) → m' !! z = m !! z.
Proof.
  intros Hre Hr. destruct (srun_ok Hcfg os _ _ (reachable_valid _ _ Hre) Hr) as (rs & w' & m' & E & Hp & Hw & _).
  exists rs, w', m'. sp; [done|by apply wf_shows|]. intros z Hz. by eapply replay_frame.
Qed.

(** ** C30 *)
Theorem C30_string_null_terminated_partial w m x l :
  reachable w m → m !! x = Some l →
  str_size x w = Ok (length l) w ∧ (∀ i c, l !! i = Some c → str_c_str x i w = Ok c w) ∧
  str_c_str x (length l) w = Ok NUL w.
Proof. intros Hre Hx. pose proof (wf_shows _ _ (reachable_valid _ _ Hre) x) as H. by rewrite Hx in H. Qed.
(** unless the caller's forward iterators throw while append() is filling spare capacity *)
Theorem C30_append_throwing_iterator_refuted w m x l cs c0 rest c :
  reachable w m → m !! x = Some l → head cs = Some c0 → str_capacity x w = Ok c w →
  length l + length ((Some <$> cs) ++ None :: rest) ≤ c →
  ∃ w', str_append_range x (RExt ((Some <$> cs) ++ None :: rest)) w = Exn ElementThrow w' ∧
    str_size x w' = Ok (length l) w' ∧ str_c_str x (length l) w' = Ok c0 w'.
Proof.
  intros Hre Hx Hc0 Hc Hfit. destruct (wf_get _ _ _ _ (reachable_valid _ _ Hre) Hx) as (ρ & s & HR & _ & Hs & Hl).
  rewrite (str_capacity_eq _ _ _ _ HR Hs) in Hc. injection Hc as <-. by eapply append_throwing.
Qed.

(** ** C31 *)
Theorem C31_string_never_faults os : respects os init_world ∅ →
  (∀ f, srun os init_world ≠ Faulted f) ∧ srun os init_world ≠ Aborted.
Proof.
  intros Hr. destruct (srun_ok Hcfg os _ _ wf_init Hr) as (rs & w & m & E & _). rewrite E. done.
Qed.
Theorem C31_string_step_never_faults w m o :
  reachable w m → sstep (inline w) o m ≠ Bad → (∀ f, sexec o w ≠ Stuck f) ∧ sexec o w ≠ Terminated.
Proof.
  intros Hre Hb. pose proof (call_ok Hcfg o w m (reachable_valid _ _ Hre) Hb) as H. by destruct (sexec o w).
Qed.
(** every buffer from new char[] belongs to exactly one string *)
Theorem C31_string_buffers_owned w m b c :
  reachable w m → mem w !! inr b = Some c →
  ∃ x cap siz, objs w !! x = Some (Str (Some (running b)) (UHeap b cap siz)) ∧ siz ≤ cap ∧ length c = S cap ∧
    ∀ y d cap' siz', objs w !! y = Some (Str d (UHeap b cap' siz')) → y = x.
Proof.
  intros Hre Hb. destruct (reachable_valid _ _ Hre) as (ρ & HR & Hrel).
  destruct (proj1 (rep_mem _ _ HR _ _) Hb) as (x & r & Hx & Hp & Hc). unfold hp in Hp.
  destruct (r_home r) as [b'|] eqn:Hh; [|done]. injection Hp as ->.
  exists x, (cap r), (r_siz r). pose proof (rep_obj _ _ _ _ HR Hx) as Ho. unfold conc in Ho. rewrite Hh in Ho.
  pose proof (rep_len _ _ _ _ HR Hx) as Hlen. sp.
  - done.
  - specialize (Hrel x). rewrite Hx in Hrel. destruct (m !! x) as [l|] eqn:Hm; [|done].
    destruct (wf_get _ _ _ _ (reachable_valid _ _ Hre) Hm) as (ρ' & r' & HR' & _ & Hx' & Hl).
    pose proof (rep_obj _ _ _ _ HR' Hx') as Ho'. rewrite Ho in Ho'. unfold conc in Ho'.
    pose proof (holds_cap _ _ Hl) as Hcl. pose proof (proj1 Hl) as Hsz.
    destruct (r_home r') as [b''|]; [|done]. injection Ho' as _ _ E1 E2. rewrite E1, E2, Hsz. done.
  - rewrite <-Hc. lia.
  - intros y d cap' siz' Hy. rewrite (rep_objs _ _ HR), lookup_fmap in Hy.
    destruct (ρ !! y) as [s|] eqn:Hys; [|done]. cbn in Hy. injection Hy as Hy. unfold conc in Hy.
    destruct (r_home s) as [b'|] eqn:Hhs; [|done]. injection Hy as _ -> _ _.
    eapply (rep_inj _ _ HR); [done..|]. unfold hp. by rewrite Hh, Hhs.
Qed.
Theorem C31_string_no_leak w : reachable w ∅ → mem w = ∅ ∧ objs w = ∅.
Proof.
  intros Hre. destruct (reachable_valid _ _ Hre) as (ρ & HR & Hrel).
  assert (ρ = ∅) as ->. { apply map_empty. intros x. by eapply rel_none, lookup_empty. }
  split; [|by rewrite (rep_objs _ _ HR), fmap_empty].
  apply map_empty. intros p. destruct (mem w !! p) as [c|] eqn:Hp; [|done].
  destruct (proj1 (rep_mem _ _ HR _ _) Hp) as (x & r & Hx & _). by rewrite lookup_empty in Hx.
Qed.

(** ** C72 *)
(** as for vector; an inline string has no deallocation function *)
Theorem C72_string_dealloc w m x s :
  reachable w m → objs w !! x = Some s →
  s_dealloc s = match s_u s with UHeap b _ _ => Some (running b) | _ => None end.
Proof.
  intros Hre Hx. destruct (reachable_valid _ _ Hre) as (ρ & HR & _).
  rewrite (rep_objs _ _ HR), lookup_fmap in Hx. destruct (ρ !! x) as [r|]; [|done].
  cbn [fmap option_fmap option_map] in Hx. injection Hx as <-. unfold conc. by destruct (r_home r).
Qed.
Theorem C72_string_released_by_owner w m o :
  reachable w m → sstep (inline w) o m ≠ Bad → sexec o w ≠ Stuck WrongModule.
Proof. intros Hre Hb. by apply (C31_string_step_never_faults _ _ _ Hre Hb). Qed.
Theorem C72_string_other_module_faults w x b c d cap siz :
  objs w !! x = Some (Str (Some d) (UHeap b cap siz)) → mem w !! inr b = Some c → d ≠ running b →
  str_destroy x w = Stuck WrongModule.
Proof.
  intros Hx Hb Hd. assert (release x w = Stuck WrongModule) as E.
  { unfold release. erewrite bind_ok by by apply get_str_eq. cbn [s_dealloc].
    erewrite bind_ok by by eapply read_heap_eq. cbn [fst]. unfold delete_char. rewrite Hb.
    rewrite (proj2 (Nat.eqb_neq _ _)) by done. done. }
  unfold str_destroy, noexcept, storage_dtor, bind. by rewrite E.
Qed.

(** ** C32 *)
Theorem C32_string_strong_guarantee w m o e w' :
  reachable w m → sstep (inline w) o m ≠ Bad → sexec o w = Exn e w' →
  objs w' = objs w ∧ mem w' = mem w ∧ shows w' m ∧ (sstep (inline w) o m = Throws e ∨ explained o m w w' e).
Proof.
  intros Hre Hb Hx. pose proof (call_ok Hcfg o w m (reachable_valid _ _ Hre) Hb) as H. rewrite Hx in H.
  destruct H as (Hw' & Ho & Hm & _ & Hy). sp; [done|done|by apply wf_shows|done].
Qed.

(** ** C33 *)
(** the call either has its effect or throws and has none *)
Definition yields {A} (r : res world A) (m m' : state) : Prop :=
  match r with Ok _ w' => shows w' m' | Exn _ w' => shows w' m | _ => False end.
Lemma step_yields o w m r m' : reachable w m → sstep (inline w) o m = Done r m' → yields (sexec o w) m m'.
Proof.
  intros Hre Hs. assert (sstep (inline w) o m ≠ Bad) as Hb by congruence.
  pose proof (call_ok Hcfg o w m (reachable_valid _ _ Hre) Hb) as H. unfold yields.
  destruct (sexec o w) as [r' w'|e w'|f|]; try done.
  - destruct H as (m1 & Hd & Hw' & _). rewrite Hs in Hd. injection Hd as <- <-. by apply wf_shows.
  - destruct H as (Hw' & _). by apply wf_shows.
Qed.
Lemma svalues_sub (m : state) x l i n : m !! x = Some l → i + n ≤ length l → svalues m (RSub x i n) = Some (take n (drop i l)).
Proof. intros Hx Hi. unfold svalues, srange. rewrite Hx, decide_True by done. by rewrite values_fmap. Qed.
Theorem C33_append_own_range w m x l i n :
  reachable w m → m !! x = Some l → i + n ≤ length l → roomy (length l + n) →
  yields (sexec (SAppendRange x (RSub x i n)) w) m (<[x:=l ++ take n (drop i l)]> m).
Proof.
  intros Hre Hx Hi Hr. eapply step_yields; [done|]. cbn [sstep]. unfold supd. rewrite Hx, (svalues_sub _ _ _ _ _ Hx Hi).
  rewrite decide_True; [done|]. rewrite take_length, drop_length. by rewrite Nat.min_l by lia.
Qed.
Theorem C33_assign_own_range w m x l i n :
  reachable w m → m !! x = Some l → i + n ≤ length l →
  yields (sexec (SAssignRange x (RSub x i n)) w) m (<[x:=take n (drop i l)]> m).
Proof.
  intros Hre Hx Hi. eapply step_yields; [done|]. cbn [sstep]. unfold supd. by rewrite Hx, (svalues_sub _ _ _ _ _ Hx Hi).
Qed.
Theorem C33_insert_own_range w m x l k i n :
  reachable w m → m !! x = Some l → i + n ≤ length l → k ≤ length l → roomy (length l + n) →
  yields (sexec (SInsertRange x k (RSub x i n)) w) m (<[x:=take k l ++ take n (drop i l) ++ drop k l]> m).
Proof.
  intros Hre Hx Hi Hk Hr. eapply step_yields; [done|]. cbn [sstep]. unfold supd, sreplace.
  rewrite Hx, (svalues_sub _ _ _ _ _ Hx Hi). rewrite decide_True by (cbn [rlen]; split; [lia|done]). done.
Qed.
Theorem C33_replace_own_range w m x l k j i n :
  reachable w m → m !! x = Some l → i + n ≤ length l → k ≤ j ≤ length l → roomy (length l + n) →
  yields (sexec (SReplaceRange x k j (RSub x i n)) w) m (<[x:=take k l ++ take n (drop i l) ++ drop j l]> m).
Proof.
  intros Hre Hx Hi Hk Hr. eapply step_yields; [done|]. cbn [sstep]. unfold supd, sreplace.
  rewrite Hx, (svalues_sub _ _ _ _ _ Hx Hi). rewrite decide_True by (cbn [rlen]; split; [lia|done]). done.
Qed.
Theorem C33_self_copy_assignment w m x l :
  reachable w m → m !! x = Some l → yields (sexec (SCopyAssign x x) w) m m.
Proof.
  intros Hre Hx. eapply step_yields; [done|]. cbn [sstep]. unfold supd. rewrite Hx. by rewrite insert_id.
Qed.

(** ** C34 *)
Theorem C34_string_capacity w m x l :
  reachable w m → m !! x = Some l →
  ∃ c, str_capacity x w = Ok c w ∧ length l ≤ c ≤ max_size ∧
    if inline w x then c = 3 * psz - 2 else ∃ k, 2 ≤ k ∧ c = k * (3 * psz).
Proof.
  intros Hre Hx. destruct (wf_get _ _ _ _ (reachable_valid _ _ Hre) Hx) as (ρ & s & HR & _ & Hs & Hl).
  exists (cap s). rewrite (str_capacity_eq _ _ _ _ HR Hs), (inline_eq _ _ _ _ HR Hs).
  pose proof (holds_cap _ _ Hl). pose proof (rep_cap Hcfg _ _ _ _ HR Hs). pose proof (rep_shape _ _ HR _ _ Hs) as Hsh.
  unfold shape, cap, max_size, sso_size, footprint in *. sp; [done|lia|lia|]. destruct (r_home s) as [b|]; [|lia].
  destruct Hsh as [(k & Hk & E) _]. exists k. split; [done|lia].
Qed.
Theorem C34_shrink_to_fit w m x l :
  reachable w m → m !! x = Some l →
  ∃ w', sexec (SShrink x) w = Ok OUnit w' ∧ shows w' m ∧ (inline w' x = true ↔ length l ≤ sso_size) ∧
    (inline w x = true ∨ sso_size < length l → str_data x w' = (p <- str_data x ;; λ _, Ok p w') w).
Proof.
  intros Hre Hx. destruct (wf_get _ _ _ _ (reachable_valid _ _ Hre) Hx) as (ρ & s & HR & Hrel & Hs & Hl).
  destruct (shrink_eq w ρ x s l HR Hs Hl Hcfg) as (w' & s' & E & _ & HR' & Hl' & H1 & H2 & H3).
  exists w'. cbn [sexec]. unfold obs_unit. erewrite bind_ok by exact E.
  pose proof (lookup_insert ρ x s') as Hs'. sp.
  - done.
  - apply wf_shows. exists (<[x:=s']> ρ). split; [done|]. rewrite <-(insert_id m x l) by done. by apply rel_insert.
  - rewrite (inline_eq _ _ _ _ HR' Hs'). split.
    + intros Hi. destruct (decide (length l ≤ sso_size)) as [|Hgt]; [done|].
      destruct (r_home s') eqn:Hh; [done|]. pose proof (rep_shape _ _ HR' _ _ Hs') as Hsh. unfold shape in Hsh. rewrite Hh in Hsh.
      pose proof (holds_cap _ _ Hl') as Hc. unfold cap in Hc. lia.
    + intros Hi. by rewrite H1.
  - rewrite (inline_eq _ _ _ _ HR Hs). intros Hor.
    assert (s' = s) as ->. { destruct Hor as [Hi|Hlt]; [|by apply H2]. apply H3. by destruct (r_home s). }
    rewrite (str_data_eq _ _ _ _ HR' Hs'). by erewrite bind_ok by by eapply str_data_eq.
Qed.

(** ** C41 *)
(** a call that neither acquires memory nor throws by its contract just has its effect *)
Lemma call_quiet o w m r m' : reachable w m → sstep (inline w) o m = Done r m' → acquires o = false →
  ∃ w', sexec o w = Ok r w' ∧ nalloc w' = nalloc w ∧ shows w' m' ∧ wf w' m'.
Proof.
  intros Hre Hs Ha. assert (sstep (inline w) o m ≠ Bad) as Hb by congruence.
  pose proof (call_ok Hcfg o w m (reachable_valid _ _ Hre) Hb) as H.
  destruct (sexec o w) as [r' w'|e w'|f|]; try done.
  - destruct H as (m1 & Hd & Hw' & _ & Hsm). rewrite Hs in Hd. injection Hd as <- <-.
    exists w'. sp; [done|by apply Hsm|by apply wf_shows|done].
  - destruct H as (_ & _ & _ & _ & [Ht|[Hq _]]); [by rewrite Hs in Ht|by rewrite Ha in Hq].
Qed.
Definition frugal (o : sop) : Prop :=
  (∃ x, o = SPopBack x) ∨ (∃ x, o = SClear x) ∨ (∃ x i j, o = SErase x i j) ∨ (∃ x i, o = SErase1 x i) ∨
  (∃ x, o = SShrink x) ∨ (∃ x y, o = SSwap x y) ∨ (∃ x y, o = SNewMove x y) ∨ (∃ x y, o = SMoveAssign x y) ∨
  (∃ z x i, o = SSubstrTailMove z x i) ∨ (∃ z x i n, o = SSubstrMove z x i n) ∨ (∃ x, o = SNew x) ∨ (∃ x, o = SDestroy x).
Theorem C41_string_noexcept_operations w m o :
  reachable w m → sstep (inline w) o m ≠ Bad → frugal o →
  ∃ r w' m', sstep (inline w) o m = Done r m' ∧ sexec o w = Ok r w' ∧ nalloc w' = nalloc w ∧ shows w' m'.
Proof.
  intros Hre Hb Hf.
  assert (acquires o = false ∧ ∃ r m', sstep (inline w) o m = Done r m') as (Ha & r & m' & Hd).
  { unfold frugal in Hf.
    repeat match goal with H : _ ∨ _ |- _ => destruct H | H : ∃ _, _ |- _ => destruct H end; subst o; (split; [done|]);
      cbn [sstep] in *; unfold supd, snew, sreplace in *; repeat case_match; eauto; done. }
  destruct (call_quiet o w m r m' Hre Hd Ha) as (w' & E & Hn & Hs & _). by exists r, w', m'.
Qed.

(** ** C35 *)
Theorem C35_string_move_construct w m x y l :
  reachable w m → m !! x = None → m !! y = Some l →
  ∃ w', sexec (SNewMove x y) w = Ok OUnit w' ∧ nalloc w' = nalloc w ∧
    shows w' (<[x:=l]> (<[y:=if inline w y then l else []]> m)) ∧ inline w' x = inline w y.
Proof.
  intros Hre Hx Hy.
  assert (Hd : sstep (inline w) (SNewMove x y) m = Done OUnit (<[x:=l]> (<[y:=smoved (inline w) y l]> m))).
  { cbn [sstep]. by rewrite Hx, Hy. }
  destruct (call_quiet _ w m _ _ Hre Hd eq_refl) as (w' & E & Hn & Hs & _). exists w'. sp; [done|done|exact Hs|].
  destruct (wf_get _ _ _ _ (reachable_valid _ _ Hre) Hy) as (ρ & s & HR & Hrel & Hys & Hl).
  pose proof (rel_none _ _ _ Hrel Hx) as Hxn. assert (x ≠ y) as Hne by congruence.
  destruct (move_new_eq w ρ x y s l HR Hxn Hys Hl Hcfg) as (w1 & r' & E1 & _ & HR1 & _ & Hh & _).
  cbn [sexec] in E. unfold obs_unit, str_new_move in E. 
  assert (w' = w1) as ->.
  { unfold noexcept in E. unfold bind in E. rewrite E1 in E. by injection E as <-. }
  assert (<[y:=moved_raw s]> (<[x:=r']> ρ) !! x = Some r') as Hx1 by (by rewrite lookup_insert_ne, lookup_insert).
  rewrite (inline_eq _ _ _ _ HR1 Hx1), (inline_eq _ _ _ _ HR Hys). by rewrite Hh.
Qed.
Theorem C35_string_move_assign w m x y l k :
  reachable w m → x ≠ y → m !! x = Some k → m !! y = Some l →
  ∃ w', sexec (SMoveAssign x y) w = Ok OUnit w' ∧ nalloc w' = nalloc w ∧
    shows w' (<[x:=l]> (<[y:=if inline w y then l else []]> m)).
Proof.
  intros Hre Hne Hx Hy.
  assert (Hd : sstep (inline w) (SMoveAssign x y) m = Done OUnit (<[x:=l]> (<[y:=smoved (inline w) y l]> m))).
  { cbn [sstep]. rewrite Hx, Hy. by rewrite decide_False. }
  destruct (call_quiet _ w m _ _ Hre Hd eq_refl) as (w' & E & Hn & Hs & _). by exists w'.
Qed.
Theorem C35_string_swap w m x y l k :
  reachable w m → m !! x = Some l → m !! y = Some k →
  ∃ w', sexec (SSwap x y) w = Ok OUnit w' ∧ nalloc w' = nalloc w ∧ shows w' (<[x:=k]> (<[y:=l]> m)) ∧
    inline w' x = inline w y ∧ inline w' y = inline w x.
Proof.
  intros Hre Hx Hy.
  assert (Hd : sstep (inline w) (SSwap x y) m = Done OUnit (<[x:=k]> (<[y:=l]> m))).
  { cbn [sstep]. by rewrite Hx, Hy. }
  destruct (call_quiet _ w m _ _ Hre Hd eq_refl) as (w' & E & Hn & Hs & _). exists w'. sp; try done.
  all: destruct (reachable_valid _ _ Hre) as (ρ & HR & Hrel).
  all: destruct (rel_get _ _ _ _ Hrel Hx) as (r & Hr & Hlr); destruct (rel_get _ _ _ _ Hrel Hy) as (s & Hsy & Hls).
  all: cbn [sexec] in E; unfold obs_unit in E; destruct (decide (x = y)) as [->|Hne].
  1,3: unfold str_swap, noexcept in E; rewrite decide_True in E by done;
       unfold bind in E; unfold get_str in E; rewrite (rep_obj _ _ _ _ HR Hr) in E; by injection E as <-.
  all: destruct (swap_eq w ρ x y r s l k HR Hne Hr Hsy Hlr Hls Hcfg) as (w1 & r' & s' & E1 & _ & HR1 & _ & _ & H1 & H2 & _).
  all: unfold bind in E; rewrite E1 in E; injection E as <-.
  - assert (<[y:=s']> (<[x:=r']> ρ) !! x = Some r') as Hx1 by (by rewrite lookup_insert_ne, lookup_insert).
    rewrite (inline_eq _ _ _ _ HR1 Hx1), (inline_eq _ _ _ _ HR Hsy). by rewrite H1.
  - assert (<[y:=s']> (<[x:=r']> ρ) !! y = Some s') as Hx1 by (by rewrite lookup_insert).
    rewrite (inline_eq _ _ _ _ HR1 Hx1), (inline_eq _ _ _ _ HR Hr). by rewrite H2.
Qed.
(** self-move-assignment and self-swap change nothing at all *)
Theorem C35_string_self_operations w m x l :
  reachable w m → m !! x = Some l →
  sexec (SMoveAssign x x) w = Ok OUnit w ∧ sexec (SSwap x x) w = Ok OUnit w.
Proof.
  intros Hre Hx. destruct (wf_get _ _ _ _ (reachable_valid _ _ Hre) Hx) as (ρ & s & HR & _ & Hs & _).
  cbn [sexec]. unfold obs_unit, bind, str_move_assign, str_swap, noexcept. split.
  - by rewrite (move_assign_self _ _ _ _ HR Hs).
  - rewrite decide_True by done. unfold bind, get_str. by rewrite (rep_obj _ _ _ _ HR Hs).
Qed.

(** ** C36 *)
Theorem C36_string_comparisons w m a b l r :
  reachable w m → schars m a = Some l → schars m b = Some r →
  ∃ lt le gt ge eq ne,
    str_lt a b w = Ok lt w ∧ str_le a b w = Ok le w ∧ str_gt a b w = Ok gt w ∧
    str_ge a b w = Ok ge w ∧ str_eq a b w = Ok eq w ∧ str_ne a b w = Ok ne w ∧
    (lt = true ↔ lex_lt l r) ∧ (gt = true ↔ lex_lt r l) ∧ (eq = true ↔ l = r) ∧
    (le = true ↔ lex_lt l r ∨ l = r) ∧ (ge = true ↔ lex_lt r l ∨ l = r) ∧ (ne = true ↔ l ≠ r).
Proof.
  intros Hre Ha Hb. destruct (reachable_valid _ _ Hre) as (ρ & HR & Hrel).
  unfold str_lt, str_le, str_gt, str_ge, str_eq, str_ne.
  do 6 eexists. do 6 (split; [by eapply compare_with_eq|]).
  rewrite <-(lex_lt_spec l r), <-(lex_gt_spec l r), <-(lex_eq l r).
  destruct (lex l r); intuition congruence.
Qed.
(** the order is total: exactly one of <, ==, > holds *)
Theorem C36_string_trichotomy l r :
  (lex_lt l r ∧ l ≠ r ∧ ¬ lex_lt r l) ∨ (l = r ∧ ¬ lex_lt l r ∧ ¬ lex_lt r l) ∨ (lex_lt r l ∧ l ≠ r ∧ ¬ lex_lt l r).
Proof.
  rewrite <-(lex_lt_spec l r), <-(lex_gt_spec l r), <-(lex_eq l r). destruct (lex l r); intuition congruence.
Qed.
Theorem C36_string_hash `{HashFn} w m x y l :
  reachable w m → m !! x = Some l → m !! y = Some l → ∃ h, str_hash x w = Ok h w ∧ str_hash y w = Ok h w.
Proof.
  intros Hre Hx Hy. destruct (reachable_valid _ _ Hre) as (ρ & HR & Hrel).
  exists (hash_bytes l). split; by eapply hash_eq.
Qed.

(** ** C79 *)
(** max_size() characters and a terminator are at most the largest object, and one more are not *)
Theorem C79_string_max_size n : n ≤ max_size ↔ (Z.of_nat (n + 1) ≤ 2 ^ (Z.of_nat wbits - 1) - 1)%Z.
Proof. destruct Hcfg as (_ & _ & _ & _ & Hm). unfold max_size, ptrdiff_max in *. lia. Qed.
(** and what no string can have more of *)
Theorem C79_string_bounded w m x l : reachable w m → m !! x = Some l → (Z.of_nat (length l) + 1 ≤ 2 ^ (Z.of_nat wbits - 1) - 1)%Z.
Proof.
  intros Hre Hx. pose proof (wf_small Hcfg _ _ _ _ (reachable_valid _ _ Hre) Hx) as H. apply C79_string_max_size in H. lia.
Qed.

(** ** C37 *)
(** a call within its contract whose result has more than max_size() characters throws *)
Theorem C37_oversized_rejected_partial w m o r m' x l' :
  reachable w m → sstep (inline w) o m = Done r m' → m' !! x = Some l' → max_size < length l' →
  ∃ e w', sexec o w = Exn e w' ∧ objs w' = objs w ∧ mem w' = mem w ∧ shows w' m.
Proof.
  intros Hre Hs Hx Hl. assert (sstep (inline w) o m ≠ Bad) as Hb by congruence.
  pose proof (call_ok Hcfg o w m (reachable_valid _ _ Hre) Hb) as H. destruct (sexec o w) as [r' w'|e w'|f|]; try done.
  - exfalso. destruct H as (m1 & Hd & Hw' & _). rewrite Hs in Hd. injection Hd as <- <-.
    pose proof (wf_small Hcfg _ _ _ _ Hw' Hx). lia.
  - destruct H as (Hw' & Ho & Hm & _). exists e, w'. sp; try done. by apply wf_shows.
Qed.
Theorem C37_length_error_partial w m x l n c i j :
  reachable w m → m !! x = Some l → max_size < n →
  str_reserve x n w = Exn LengthError w ∧ str_resize x n w = Exn LengthError w ∧
  str_resize_fill x n c w = Exn LengthError w ∧ str_assign_fill x n c w = Exn LengthError w ∧
  (∀ k, n = length l + k → countable n →
     str_append_fill x k c w = Exn LengthError w ∧ str_insert_fill x i k c w = Exn LengthError w) ∧
  (∀ k, n = length l - (j - i) + k → i ≤ j ≤ length l → countable n →
     str_replace_fill x i j k c w = Exn LengthError w).
Proof.
  intros Hre Hx Hn. destruct (wf_get _ _ _ _ (reachable_valid _ _ Hre) Hx) as (ρ & s & HR & _ & Hs & Hl).
  pose proof (holds_cap _ _ Hl) as Hcl. pose proof (rep_cap Hcfg _ _ _ _ HR Hs) as [_ Hcp].
  assert (Hrs : ∀ c, str_resize_fill x n c w = Exn LengthError w) by (intros; by eapply resize_too_big).
  sp.
  - by eapply reserve_too_big.
  - apply Hrs.
  - apply Hrs.
  - unfold str_assign_fill, assign_no_aliasing. apply bind_exn, Hrs.
  - intros k E Hc. split.
    + unfold str_append_fill, append_no_aliasing. erewrite bind_ok by by eapply str_size_eq. rewrite (proj1 Hl).
      rewrite wadd_small by (unfold countable in *; lia). rewrite <-E. apply bind_exn, Hrs.
    + unfold str_insert_fill, insert_no_aliasing. erewrite bind_ok by by eapply str_size_eq. rewrite (proj1 Hl).
      rewrite wadd_small by (unfold countable in *; lia). rewrite <-E. apply bind_exn, Hrs.
  - intros k E Hij Hc. unfold str_replace_fill, replace_no_aliasing.
    rewrite (proj2 (Nat.ltb_lt _ _)) by (unfold max_size in *; lia).
    erewrite bind_ok by by eapply str_size_eq. rewrite (proj1 Hl).
    replace (length l + (k - (j - i))) with n by (unfold max_size in *; lia).
    rewrite wadd_small by (unfold countable, max_size in *; lia).
    replace (length l + (k - (j - i))) with n by (unfold max_size in *; lia). apply bind_exn, Hrs.
Qed.
(** counts for which the new size overflows std::size_t, or does so after rounding up, are
    not rejected: the string is shrunk, or gets the smallest heap buffer, and is overrun *)
Theorem C37_count_overflow_refuted w m x l n c :
  reachable w m → m !! x = Some l → countable n → ¬ countable (length l + n) →
  str_append_fill x n c w = Stuck OutOfBounds ∧
  (∀ i, i ≤ length l → str_insert_fill x i n c w = Stuck OutOfBounds) ∧
  (∀ i j, i ≤ j ≤ length l → ¬ countable (length l - (j - i) + n) → str_replace_fill x i j n c w = Stuck OutOfBounds).
Proof.
  intros Hre Hx Hn Ho. destruct (wf_get _ _ _ _ (reachable_valid _ _ Hre) Hx) as (ρ & s & HR & _ & Hs & Hl). sp.
  - by eapply append_overflow.
  - intros i Hi. by eapply insert_overflow.
  - intros i j Hij Hij'. by eapply replace_overflow.
Qed.
Theorem C37_constructor_overflow_refuted w m x n c :
  reachable w m → m !! x = None → (∀ k, alloc_fails k = false) → countable n → ¬ roomy n →
  str_new_fill x n c w = Stuck OutOfBounds.
Proof.
  intros Hre Hx Ha Hn Hr. destruct (reachable_valid _ _ Hre) as (ρ & HR & Hrel).
  eapply new_fill_overflow; try done. by eapply rel_none.
Qed.

(** ** C38 *)
(** growing to n characters copies about n^2 / (2 * footprint) of them *)
Theorem C38_push_back_copies x cs :
  (∀ k, alloc_fails k = false) → length cs + footprint ≤ ptrdiff_max →
  ∃ w, srun (SNew x :: (SPushBack x <$> cs)) init_world = Finished (replicate (S (length cs)) OUnit) w ∧
    length cs * length cs ≤ 2 * footprint * ncopied w + footprint * length cs + 4 * footprint.
Proof.
  intros Ha Hfit. destruct wf_init as (ρ & HR & Hrel). pose proof (rel_none ρ ∅ x Hrel (lookup_empty _)) as Hx.
  destruct (default_eq init_world ρ x HR Hx) as (w0 & E0 & Hs0 & H0).
  destruct (pushes_quadratic Hcfg w0 _ x raw0 cs H0 (lookup_insert _ _ _)) as (w & E & Hq); try done.
  { apply holds_raw0. }
  exists w. split.
  - rewrite srun_step. cbn [sexec]. unfold obs_unit, bind. unfold str_new, noexcept. rewrite E0. unfold ret. by rewrite E.
  - destruct Hs0 as (_ & _ & Hc). rewrite Hc in Hq. cbn [ncopied init_world] in Hq. by rewrite Nat.sub_0_r in Hq.
Qed.

(** ** C40 *)
Theorem C40_string_concat w m z l r a b :
  reachable w m → m !! z = None → svalues m l = Some a → svalues m r = Some b → roomy (length a + length b) →
  yields (sexec (SConcat z l r) w) m (<[z:=a ++ b]> m).
Proof.
  intros Hre Hz Hl Hr Hro. eapply step_yields; [done|]. cbn [sstep]. unfold snew. by rewrite Hl, Hr, Hz, decide_True by done.
Qed.
Theorem C40_string_substr w m z x l i n :
  reachable w m → m !! z = None → m !! x = Some l →
  (i ≤ length l → yields (sexec (SSubstrTail z x i) w) m (<[z:=drop i l]> m)) ∧
  (i + n ≤ length l → yields (sexec (SSubstr z x i n) w) m (<[z:=take n (drop i l)]> m)).
Proof.
  intros Hre Hz Hx. split; intros Hi; (eapply step_yields; [done|]); cbn [sstep]; unfold snew.
  - by rewrite Hz, Hx, decide_True by done.
  - by rewrite Hz, (svalues_sub _ _ _ _ _ Hx Hi).
Qed.
Theorem C40_string_substr_rvalue w m z x l i n :
  reachable w m → m !! z = None → m !! x = Some l →
  (i ≤ length l → ∃ w', sexec (SSubstrTailMove z x i) w = Ok OUnit w' ∧
     shows w' (<[z:=drop i l]> (<[x:=if inline w x then drop i l else []]> m))) ∧
  (i + n ≤ length l → ∃ w', sexec (SSubstrMove z x i n) w = Ok OUnit w' ∧
     shows w' (<[z:=take n (drop i l)]> (<[x:=if inline w x then take n (drop i l) else []]> m))).
Proof.
  intros Hre Hz Hx. split; intros Hi.
  - assert (Hd : sstep (inline w) (SSubstrTailMove z x i) m =
      Done OUnit (<[z:=drop i l]> (<[x:=smoved (inline w) x (drop i l)]> m))).
    { cbn [sstep]. by rewrite Hz, Hx, decide_True by done. }
    destruct (call_quiet _ w m _ _ Hre Hd eq_refl) as (w' & E & _ & Hs & _). by exists w'.
  - assert (Hd : sstep (inline w) (SSubstrMove z x i n) m =
      Done OUnit (<[z:=take n (drop i l)]> (<[x:=smoved (inline w) x (take n (drop i l))]> m))).
    { cbn [sstep]. by rewrite Hz, Hx, decide_True by done. }
    destruct (call_quiet _ w m _ _ Hre Hd eq_refl) as (w' & E & _ & Hs & _). by exists w'.
Qed.

(** ** C42 *)
Theorem C42_string_within_capacity w m o x n c p :
  reachable w m → sstep (inline w) o m ≠ Bad → needs o m = Some (x, n) →
  str_capacity x w = Ok c w → str_data x w = Ok p w → n ≤ c →
  ∃ r w', sexec o w = Ok r w' ∧ nalloc w' = nalloc w ∧ str_capacity x w' = Ok c w' ∧ str_data x w' = Ok p w'.
Proof.
  intros Hre Hb Hn Hc Hp Hle.
  destruct (call_keeps Hcfg o w m x n c p (reachable_valid _ _ Hre) Hb Hn Hc Hp Hle) as (r & w' & E & Hs & ? & ?).
  exists r, w'. sp; try done. apply Hs.
Qed.
Theorem C42_string_reserve w m x l n w1 :
  reachable w m → m !! x = Some l → str_reserve x n w = Ok tt w1 →
  shows w1 m ∧ ∃ c p, str_capacity x w1 = Ok c w1 ∧ n ≤ c ∧ str_data x w1 = Ok p w1 ∧
  ∀ cs, length l + length cs ≤ n →
    ∃ w2, srun (SPushBack x <$> cs) w1 = Finished (replicate (length cs) OUnit) w2 ∧ nalloc w2 = nalloc w1 ∧
      str_capacity x w2 = Ok c w2 ∧ str_data x w2 = Ok p w2 ∧ shows w2 (<[x:=l ++ cs]> m).
Proof.
  intros Hre Hx E. destruct (wf_get _ _ _ _ (reachable_valid _ _ Hre) Hx) as (ρ & s & HR & Hrel & Hs & Hl).
  pose proof (reserve_run Hcfg w ρ x s l n HR Hs Hl) as H. unfold run_to in H. rewrite E in H.
  destruct H as (r & HR1 & Hl1 & _ & Hn & _).
  assert (Hw1 : wf w1 m).
  { exists (<[x:=r]> ρ). split; [done|]. rewrite <-(insert_id m x l) by done. by apply rel_insert. }
  pose proof (str_capacity_eq _ _ _ _ HR1 (lookup_insert ρ x r)) as Hc.
  pose proof (str_data_eq _ _ _ _ HR1 (lookup_insert ρ x r)) as Hp.
  split; [by apply wf_shows|]. do 2 eexists. sp; [exact Hc|done|exact Hp|].
  intros cs Hcs. destruct (pushes_stay Hcfg x cs w1 m l _ _ Hw1 Hx Hc Hp) as (w2 & E2 & Hs2 & Hw2 & ? & ?); [lia|].
  exists w2. sp; try done; [apply Hs2|by apply wf_shows].
Qed.

(** ** C39, C65 *)
Lemma literal_eq x b t w : NUL ∉ b → t = [] ∨ (∃ t', t = NUL :: t') →
  str_literal x (b ++ t) w = noexcept (str_new_range x (RExt (Some <$> b))) w.
Proof.
  intros Hb Ht. unfold str_literal, lit_array.
  assert (∃ t', (b ++ t) ++ [NUL] = b ++ NUL :: t') as [t' ->].
  { destruct Ht as [->|[t' ->]]; [exists []; by rewrite app_nil_r|]. exists (t' ++ [NUL]). by rewrite <-app_assoc. }
  by rewrite traits_length_spec, take_app.
Qed.
Lemma literal_run x b w m : reachable w m → m !! x = None → length b ≤ ptrdiff_max →
  match str_new_range x (RExt (Some <$> b)) w with
  | Ok _ w' => shows w' (<[x:=b]> m)
  | Exn e w' => (∃ k, nalloc w ≤ k < nalloc w' ∧ alloc_fails k = true) ∨ ptrdiff_max < length b + footprint
  | _ => False
  end.
Proof.
  intros Hre Hx Hb.
  assert (Hd : sstep (inline w) (SNewRange x (RExt (Some <$> b))) m = Done OUnit (<[x:=b]> m)).
  { cbn [sstep]. unfold srange. rewrite decide_True.
    - by rewrite Hx, values_fmap.
    - rewrite fmap_length. unfold ptrdiff_max in Hb. assert (0 < 2 ^ (Z.of_nat wbits - 1))%Z; [|lia].
      apply Z.pow_pos_nonneg; [lia|]. destruct Hcfg as (_ & _ & _ & Hw & _). lia. }
  pose proof (call_ok Hcfg _ w m (reachable_valid _ _ Hre) ltac:(rewrite Hd; done)) as H.
  cbn [sexec] in H. unfold obs_unit, bind in H. destruct (str_new_range x (RExt (Some <$> b)) w) as [[] w'|e w'|f|]; try done.
  - unfold ret in H. destruct H as (m1 & Hd' & Hw' & _). rewrite Hd in Hd'. injection Hd' as <-. by apply wf_shows.
  - destruct H as (_ & _ & _ & _ & [Ht|[_ He]]); [by rewrite Hd in Ht|]. destruct e; try done.
    + right. cbn [demand rlen] in He. rewrite fmap_length in He. unfold max_size in He. destruct Hcfg as (? & _). unfold footprint. lia.
    + cbn [demand rlen] in He. by rewrite fmap_length in He.
Qed.
Theorem C39_literal_without_null_partial w m x a :
  reachable w m → m !! x = None → NUL ∉ a → (∀ k, alloc_fails k = false) → length a + footprint ≤ ptrdiff_max →
  ∃ w', str_literal x a w = Ok tt w' ∧ shows w' (<[x:=a]> m).
Proof.
  intros Hre Hx Hn Ha Hl. pose proof (literal_eq x a [] w Hn (or_introl eq_refl)) as E. rewrite app_nil_r in E. rewrite E.
  pose proof (literal_run x a w m Hre Hx ltac:(lia)) as H. unfold noexcept.
  destruct (str_new_range x (RExt (Some <$> a)) w) as [[] w'|e w'|f|]; try done; [by exists w'|].
  exfalso. destruct H as [(k & _ & Hk)|?]; [by rewrite Ha in Hk|lia].
Qed.
(** the literal is cut at its first null character *)
Theorem C39_literal_embedded_null_refuted w m x b t :
  reachable w m → m !! x = None → NUL ∉ b → (∀ k, alloc_fails k = false) → length b + footprint ≤ ptrdiff_max →
  ∃ w', str_literal x (b ++ NUL :: t) w = Ok tt w' ∧ shows w' (<[x:=b]> m) ∧ str_size x w' = Ok (length b) w'.
Proof.
  intros Hre Hx Hn Ha Hl. rewrite (literal_eq x b (NUL :: t) w Hn) by (right; by eexists).
  pose proof (literal_run x b w m Hre Hx ltac:(lia)) as H. unfold noexcept.
  destruct (str_new_range x (RExt (Some <$> b)) w) as [[] w'|e w'|f|]; try done.
  - exists w'. sp; try done. specialize (H x). rewrite lookup_insert in H. apply H.
  - exfalso. destruct H as [(k & _ & Hk)|?]; [by rewrite Ha in Hk|lia].
Qed.
(** the literal operator is noexcept, so an allocation failure ends the program *)
Theorem C65_literal_terminates_refuted w m x a :
  reachable w m → m !! x = None → NUL ∉ a → sso_size < length a ≤ ptrdiff_max → alloc_fails (nalloc w) = true →
  str_literal x a w = Terminated.
Proof.
  intros Hre Hx Hn Hl Ha. pose proof (literal_eq x a [] w Hn (or_introl eq_refl)) as El. rewrite app_nil_r in El. rewrite El.
  destruct (reachable_valid _ _ Hre) as (ρ & HR & Hrel). pose proof (rel_none _ _ _ Hrel Hx) as Hxn.
  destruct (default_eq w ρ x HR Hxn) as (w0 & E0 & Hs0 & H0).
  destruct (temp_name_eq w0 _ H0) as (t & Et & Ht).
  set (w1 := World (objs w0) (mem w0) (nextb w0) (S (nalloc w0)) (ncopied w0)).
  assert (E1 : storage_assign x (length a) w0 = Exn BadAlloc w1).
  { unfold storage_assign. erewrite bind_ok by exact Et. apply bind_exn.
    unfold storage_new. rewrite (proj2 (Nat.ltb_lt _ _)) by lia. erewrite bind_ok by done.
    apply bind_exn. unfold new_char.
    destruct Hs0 as (_ & Hna & _). rewrite <-Hna in Ha. by rewrite Ha. }
  assert (H1 : Rep w1 (<[x:=raw0]> ρ)) by (destruct H0 as [H1 H2 H3 H4 H5]; split; assumption).
  destruct (dtor_eq w1 _ x raw0 H1 (lookup_insert _ _ _)) as (w2 & E2 & _).
  assert (str_new_range x (RExt (Some <$> a)) w = Exn BadAlloc w2) as E.
  { unfold str_new_range, bind_range. erewrite bind_ok by done. unfold str_new_from, construct_str. cbn [fst snd].
    erewrite bind_ok by exact E0. unfold on_exn, bind at 1. rewrite fmap_length, E1. by rewrite E2. }
  unfold noexcept. by rewrite E.
Qed.
End props.

(** ** C38 *)
(** no constant serves all platforms; on each, the cost per character grows with the length *)
Theorem C38_amortised_constant_refuted k :
  ∃ (C : StrCfg) (n : nat) rs w, @cfg_ok C ∧
    @srun C (SNew 0 :: replicate n (SPushBack 0 x61)) init_world = Finished rs w ∧ k * n < ncopied w.
Proof.
  set (n := 48 * k + 200).
  assert (Hpm : n + 24 ≤ @ptrdiff_max {| psz := 8; wbits := n + 26; alloc_fails := λ _, false; running := λ b, b |}).
  { unfold ptrdiff_max. cbn [wbits]. replace (Z.of_nat (n + 26) - 1)%Z with (Z.of_nat (n + 25)) by lia.
    pose proof (Z.pow_gt_lin_r 2 (Z.of_nat (n + 25))). lia. }
  exists {| psz := 8; wbits := n + 26; alloc_fails := λ _, false; running := λ b, b |}, n.
  set (C := {| psz := 8; wbits := n + 26; alloc_fails := λ _, false; running := λ b, b |}) in *.
  assert (Hok : @cfg_ok C).
  { unfold cfg_ok, sso_size, footprint. cbn [psz C wbits]. split; [lia|]. split; [done|]. split; [lia|]. split; [lia|]. lia. }
  destruct (@C38_push_back_copies C Hok 0 (replicate n x61)) as (w & E & Hq).
  - done.
  - rewrite replicate_length. exact Hpm.
  - eexists _, w. split; [done|]. rewrite fmap_replicate in E. split; [exact E|].
    rewrite replicate_length in Hq. change (@footprint C) with 24 in Hq. unfold n in *. nia.
Qed.

(** ** Examples *)
(** [check C f os]: run [os] under configuration [C] within contracts, then look at the
    resulting world and sequences with [f] *)
Definition check (C : StrCfg) {A} (f : world → gmap nat (list char) → A) (os : list sop) : option A :=
  (λ p : world * gmap nat (list char), f p.1 p.2) <$> @follow C os init_world ∅.
Lemma check_reachable af (f : world → gmap nat (list char) → bool) os :
  check (cfg af) f os = Some true → ∃ w m, @reachable (cfg af) w m ∧ f w m = true.
Proof.
  unfold check. destruct (@follow (cfg af) os init_world ∅) as [[w m]|] eqn:E; [|done]. cbn. intros [= H].
  exists w, m. split; [|done]. apply (@follow_reachable (cfg af) os). exact E.
Qed.
Definition is (l : list char) (o : option (list char)) : bool := 
  match o with Some k => bool_decide (map Byte.to_N k = map Byte.to_N l) | None => false end.
Definition gotc {S} (r : res S char) (a : char) : bool := match r with Ok b _ => Byte.eqb a b | _ => false end.
Definition gotn {S} (r : res S nat) (a : nat) : bool := match r with Ok b _ => a =? b | _ => false end.
Definition gotb {S} (r : res S bool) (a : bool) : bool := match r with Ok b _ => Bool.eqb a b | _ => false end.
(** does string [x] show [l]? *)
Definition reads (C : StrCfg) (x : nat) (l : list char) (w : world) : bool :=
  gotn (@str_size x w) (length l) &&
  forallb (λ p : nat * char, gotc (@str_c_str x p.1 w) p.2) (zip (seq 0 (S (length l))) (l ++ [NUL])).
Definition ext (l : list char) : range := RExt (Some <$> l).
Definition str (x : nat) (l : list char) : list sop := [SNewRange x (ext l)].
Notation abc := [x61; x62; x63].
Notation abcdef := [x61; x62; x63; x64; x65; x66].

(** strings of both forms; string 1 moves from inline to heap and back *)
Example C29_case :
  let os := str 0 abc ++ [SNewCopy 1 0; SAppendRange 1 (RSub 0 1 2); SInsertRange 1 1 (RSub 1 2 3); SPushBack 0 x78;
     SNewMove 2 1; SReplaceRange 2 0 2 (RSub 0 0 4); SErase 2 1 3; SSwap 0 2; SSubstrTailMove 3 0 5; SShrink 3;
     SReplaceFill 3 1 1 9 x79; SAssignInput 0 [Some x64; None]; SAt 3 100; SConcat 4 (RSub 3 0 3) (ext abc);
     SSize 4; SBack 4; SCStr 4 6; SResize 2 2; SPopBack 2; SEmpty 1; SDestroy 4] in
  @respects good os init_world ∅ ∧ @fits good os init_world ∅ ∧
  match @srun good os init_world with
  | Finished rs w => rs = [OUnit; OUnit; OUnit; ONat 1; OUnit; OUnit; OUnit; ONat 1; OUnit; OUnit; OUnit; OUnit;
      OThrew ElementThrow; OThrew OutOfRange; OUnit; ONat 6; OChar x63; OChar NUL; OUnit; OUnit; OBool true; OUnit] ∧
      reads good 2 [x61] w && reads good 3 ([x63] ++ replicate 9 x79 ++ [x62; x63]) w = true
  | _ => False
  end.
Proof. vm_compute. repeat split; try lia. Qed.
(** the second allocation fails *)
Example C29_failing_case :
  let os := str 0 abcdef ++ [SNewCopy 1 0; SAppendFill 0 7 x78; SSize 0] in
  @respects (cfg (λ k, k =? 1)) os init_world ∅ ∧
  match @srun (cfg (λ k, k =? 1)) os init_world with
  | Finished rs _ => rs = [OUnit; OThrew BadAlloc; OUnit; ONat 13]
  | _ => False
  end.
Proof. vm_compute. repeat split; try lia. Qed.
Example C29_independence_case : ∃ w m, @reachable good w m ∧
  is abc (m !! 0) && is abcdef (m !! 1) &&
  match @srun good [SAppendRange 0 (RSub 1 0 6); SClear 0] w with Finished _ w' => reads good 1 abcdef w' | _ => false end = true.
Proof. apply (check_reachable _ _ (str 0 abc ++ str 1 abcdef)). by vm_compute. Qed.

(** an inline and a heap string *)
Example C30_case : ∃ w m, @reachable good w m ∧
  is abc (m !! 0) && is abcdef (m !! 1) && @inline w 0 && negb (@inline w 1) && reads good 0 abc w && reads good 1 abcdef w = true.
Proof. apply (check_reachable _ _ (str 0 abc ++ str 1 abcdef)). by vm_compute. Qed.
(** "abc".append(first, last) where the second dereference throws leaves "abc" followed by 'd' *)
Example C30_refuted_case : ∃ w m, @reachable good w m ∧
  is abc (m !! 0) && gotn (@str_capacity good 0 w) 12 &&
  match @str_append_range good 0 (RExt [Some x64; None; Some x65]) w with
  | Exn ElementThrow w' => gotn (@str_size 0 w') 3 && gotc (@str_c_str 0 3 w') x64
  | _ => false
  end = true.
Proof. apply (check_reachable _ _ (str 0 abc ++ [SReserve 0 9])). by vm_compute. Qed.

Example C31_case :
  let os := str 0 abc ++ str 1 abcdef ++ [SNewMove 2 1; SAppendRange 0 (RSub 2 1 5); SNewCopy 3 0] in
  check good (λ w m, (size m, size (mem w), nalloc w)) os = Some (4, 4, 3) ∧
  check good (λ w m, (size m, size (mem w))) (os ++ [SDestroy 2; SDestroy 0; SDestroy 1; SDestroy 3]) = Some (0, 0).
Proof. by vm_compute. Qed.

(** string 0 (module 0) and string 1 (module 1) change places, string 3 is inline; shrink_to_fit
    and move assignment release memory of both modules *)
Example C72_case :
  let look := check good (λ w m, (λ x, (λ s : StringModel.str, (s_dealloc s, match s_u s with UHeap b _ _ => Some b | _ => None end)) <$> objs w !! x) <$> [0; 1; 2; 3]) in
  let three := str 0 abcdef ++ str 1 abcdef ++ str 3 abc in
  look three = Some [Some (Some 0, Some 0); Some (Some 1, Some 1); None; Some (None, None)] ∧
  look (three ++ [SSwap 0 1; SSwap 0 3; SNewMove 2 1]) = Some [Some (None, None); Some (None, None); Some (Some 0, Some 0); Some (Some 1, Some 1)] ∧
  look (three ++ [SMoveAssign 0 1; SReserve 3 9; SErase 0 2 6; SShrink 0]) = Some [Some (None, None); Some (None, None); None; Some (Some 0, Some 2)] ∧
  check good (λ w m, (size (mem w))) (three ++ [SSwap 0 1; SSwap 0 3; SNewMove 2 1; SDestroy 3; SDestroy 0; SDestroy 2; SDestroy 1]) = Some 0.
Proof. by vm_compute. Qed.

Example C32_case : ∃ w m, @reachable (cfg (λ k, k =? 1)) w m ∧
  is abcdef (m !! 0) &&
  match @sexec (cfg (λ k, k =? 1)) (SInsertFill 0 2 10 x78) w with
  | Exn BadAlloc w' => reads (cfg (λ k, k =? 1)) 0 abcdef w' && (nalloc w' =? 2)
  | _ => false
  end = true.
Proof. apply (check_reachable _ _ (str 0 abcdef)). by vm_compute. Qed.

(** in place, from inline to heap, and from heap to heap *)
Example C33_case :
  let after o x l := check good (λ w m, match @sexec good o w with Ok _ w' => reads good x l w' | _ => false end) in
  let full := str 0 (abcdef ++ abcdef) in
  after (SAppendRange 0 (RSub 0 1 2)) 0 [x61; x62; x63; x62; x63] (str 0 abc) = Some true ∧
  after (SAppendRange 0 (RSub 0 1 2)) 0 (abcdef ++ [x62; x63]) (str 0 abcdef) = Some true ∧
  after (SAppendRange 0 (RSub 0 0 12)) 0 (abcdef ++ abcdef ++ abcdef ++ abcdef) full = Some true ∧
  after (SAssignRange 0 (RSub 0 2 3)) 0 [x63; x64; x65] (str 0 abcdef) = Some true ∧
  after (SAssignRange 0 (RSub 0 5 4)) 0 [x66; x61; x62; x63] full = Some true ∧
  after (SInsertRange 0 1 (RSub 0 0 3)) 0 [x61; x61; x62; x63; x62; x63] (str 0 abc) = Some true ∧
  after (SInsertRange 0 1 (RSub 0 0 6)) 0 ([x61] ++ abcdef ++ [x62; x63; x64; x65; x66]) (str 0 abcdef) = Some true ∧
  after (SReplaceRange 0 1 5 (RSub 0 0 6)) 0 ([x61] ++ abcdef ++ [x66]) (str 0 abcdef) = Some true ∧
  after (SReplaceRange 0 0 6 (RSub 0 4 2)) 0 [x65; x66] (str 0 abcdef) = Some true ∧
  after (SCopyAssign 0 0) 0 abcdef (str 0 abcdef) = Some true ∧
  after (SCopyAssign 0 0) 0 (abcdef ++ abcdef) full = Some true.
Proof. by vm_compute. Qed.

Example C34_case :
  let look := check good (λ w m, (match @str_capacity good 0 w with Ok c _ => Some c | _ => None end, inline w 0)) in
  look (str 0 [x61; x62; x63; x64]) = Some (Some 4, true) ∧
  look (str 0 [x61; x62; x63; x64; x65]) = Some (Some 12, false) ∧
  look (str 0 (abcdef ++ abcdef ++ [x61])) = Some (Some 18, false) ∧
  look (str 0 abcdef ++ [SErase 0 4 6]) = Some (Some 12, false) ∧
  look (str 0 abcdef ++ [SErase 0 4 6; SShrink 0]) = Some (Some 4, true) ∧
  look (str 0 abcdef ++ [SErase 0 5 6; SShrink 0]) = Some (Some 12, false).
Proof. by vm_compute. Qed.

Example C35_case :
  let after o f os := check good (λ w m, match @sexec good o w with Ok _ w' => f w' && (nalloc w' =? nalloc w) | _ => false end) os in
  let both := str 0 abc ++ str 1 abcdef in
  after (SNewMove 2 0) (λ w, reads good 2 abc w && reads good 0 abc w) both = Some true ∧
  after (SNewMove 2 1) (λ w, reads good 2 abcdef w && reads good 1 [] w) both = Some true ∧
  after (SMoveAssign 0 1) (λ w, reads good 0 abcdef w && reads good 1 [] w) both = Some true ∧
  after (SMoveAssign 1 0) (λ w, reads good 0 abc w && reads good 1 abc w) both = Some true ∧
  after (SSwap 1 0) (λ w, reads good 0 abcdef w && reads good 1 abc w) both = Some true ∧
  after (SSwap 0 1) (λ w, reads good 0 abcdef w && reads good 1 abc w) both = Some true ∧
  after (SSwap 0 1) (λ w, reads good 0 [x7a] w && reads good 1 abc w) (str 0 abc ++ str 1 [x7a]) = Some true ∧
  after (SSwap 0 1) (λ w, reads good 0 (x7a :: abcdef) w && reads good 1 abcdef w) (str 0 abcdef ++ str 1 (x7a :: abcdef)) = Some true ∧
  after (SSwap 1 1) (λ w, reads good 1 abcdef w) both = Some true ∧
  after (SMoveAssign 1 1) (λ w, reads good 1 abcdef w) both = Some true.
Proof. by vm_compute. Qed.

(** bytes above 127 sort after the others; a prefix sorts first *)
Example C36_case : ∃ w m, @reachable good w m ∧
  is abc (m !! 0) && is [x61; xe4] (m !! 1) && is abcdef (m !! 2) &&
  gotb (str_lt (AStr 0) (AStr 1) w) true && gotb (str_gt (AStr 1) (AStr 2) w) true &&
  gotb (str_le (AStr 0) (AStr 2) w) true && gotb (str_ge (AStr 0) (AView (RSub 2 0 3)) w) true &&
  gotb (str_eq (AView (RSub 2 0 3)) (AStr 0) w) true && gotb (str_ne (AStr 2) (AView (ext abc)) w) true &&
  gotb (str_lt (AView (ext [])) (AView (ext [NUL])) w) true &&
  match @str_hash (λ l, length l * 3) 2 w with Ok h _ => h =? 18 | _ => false end = true.
Proof. apply (check_reachable _ _ (str 0 abc ++ str 1 [x61; xe4] ++ str 2 abcdef)). by vm_compute. Qed.

Example C79_case : @max_size good = 126 ∧ @ptrdiff_max good = 127.
Proof. by vm_compute. Qed.
(** max_size() is 126; 3 + 253 overflows, 253 does not but rounding it up does *)
Example C37_case : ∃ w m, @reachable good w m ∧
  is abc (m !! 0) && @bool_decide (@roomy good 250) _ && negb (@bool_decide (@roomy good 251) _) &&
  match @str_resize good 0 127 w with Exn LengthError _ => true | _ => false end &&
  match @str_append_fill good 0 124 x78 w with Exn LengthError _ => true | _ => false end &&
  match @str_append_fill good 0 252 x78 w with Exn LengthError _ => true | _ => false end &&
  match @str_append_fill good 0 253 x78 w with Stuck OutOfBounds => true | _ => false end &&
  match @str_insert_fill good 0 1 255 x78 w with Stuck OutOfBounds => true | _ => false end &&
  match @str_replace_fill good 0 1 2 255 x78 w with Stuck OutOfBounds => true | _ => false end &&
  match @str_new_fill good 1 250 x78 w with Exn BadAlloc _ => true | _ => false end &&
  match @str_new_fill good 1 251 x78 w with Stuck OutOfBounds => true | _ => false end = true.
Proof. apply (check_reachable _ _ (str 0 abc)). by vm_compute. Qed.

(** capacities 4, 12, 18, ..., 96 are outgrown on the way to 100 characters *)
Example C38_case :
  check good (λ w m, ncopied w) ([SNew 0] ++ replicate 100 (SPushBack 0 x61)) = Some 814 ∧
  @respects good ([SNew 0] ++ replicate 100 (SPushBack 0 x61)) init_world ∅.
Proof. vm_compute. done. Qed.

Example C39_case : ∃ w m, @reachable good w m ∧
  negb (bool_decide (is_Some (m !! 1))) &&
  match @str_literal good 1 abcdef w with Ok _ w' => reads good 1 abcdef w' | _ => false end &&
  match @str_literal good 1 [x61; NUL; x62] w with Ok _ w' => reads good 1 [x61] w' | _ => false end = true.
Proof. apply (check_reachable _ _ (str 0 abc)). by vm_compute. Qed.
Example C65_case : ∃ w m, @reachable (cfg (λ k, k =? 1)) w m ∧
  (nalloc w =? 1) && match @str_literal (cfg (λ k, k =? 1)) 1 abcdef w with Terminated => true | _ => false end = true.
Proof. apply (check_reachable _ _ (str 0 abcdef)). by vm_compute. Qed.

Example C40_case :
  let after o f os := check good (λ w m, match @sexec good o w with Ok _ w' => f w' | _ => false end) os in
  let both := str 0 abc ++ str 1 abcdef in
  after (SConcat 2 (RSub 0 0 3) (RSub 1 0 6)) (λ w, reads good 2 (abc ++ abcdef) w && reads good 0 abc w) both = Some true ∧
  after (SConcat 2 (ext [x78]) (RSub 0 0 3)) (λ w, reads good 2 (x78 :: abc) w) both = Some true ∧
  after (SSubstrTail 2 1 1) (λ w, reads good 2 [x62; x63; x64; x65; x66] w && reads good 1 abcdef w) both = Some true ∧
  after (SSubstr 2 1 2 3) (λ w, reads good 2 [x63; x64; x65] w && reads good 1 abcdef w) both = Some true ∧
  after (SSubstrTailMove 2 1 2) (λ w, reads good 2 [x63; x64; x65; x66] w && reads good 1 [] w) both = Some true ∧
  after (SSubstrMove 2 0 1 1) (λ w, reads good 2 [x62] w && reads good 0 [x62] w) both = Some true.
Proof. by vm_compute. Qed.

Example C41_case : ∃ w m, @reachable (cfg (λ k, 2 <=? k)) w m ∧
  is abcdef (m !! 0) && is abcdef (m !! 1) && (nalloc w =? 2) &&
  match @srun (cfg (λ k, 2 <=? k)) [SPopBack 0; SErase 0 0 1; SErase1 0 1; SShrink 0; SSwap 0 1; SNewMove 2 0; SMoveAssign 1 2;
      SSubstrTailMove 3 1 2; SClear 1; SNew 4; SDestroy 3] w with
  | Finished rs w' => forallb (λ r, match r with OThrew _ => false | _ => true end) rs && (nalloc w' =? 2)
  | _ => false
  end = true.
Proof. apply (check_reachable _ _ (str 0 abcdef ++ str 1 abcdef)). by vm_compute. Qed.

(** twelve characters stay in the first buffer, the thirteenth moves *)
Example C42_case :
  let look := check good (λ w m, (match str_data 0 w with Ok p _ => Some p | _ => None end,
                                  match @str_capacity good 0 w with Ok c _ => Some c | _ => None end, nalloc w)) in
  look (str 0 abcdef) = Some (Some (inr 0, 0), Some 12, 1) ∧
  look (str 0 abcdef ++ [SAppendRange 0 (RSub 0 0 3); SInsertRange 0 2 (ext abc); SErase 0 1 7; SReplaceRange 0 0 1 (ext abc);
        SPushBack 0 x78; SAssignRange 0 (RSub 0 1 2); SPopBack 0; SClear 0]) = Some (Some (inr 0, 0), Some 12, 1) ∧
  look (str 0 abcdef ++ [SAppendRange 0 (RSub 0 0 6); SPushBack 0 x78]) = Some (Some (inr 1, 0), Some 18, 2) ∧
  look (str 0 abc ++ [SReserve 0 30]) = Some (Some (inr 0, 0), Some 30, 1) ∧
  look (str 0 abc ++ [SReserve 0 30] ++ replicate 27 (SPushBack 0 x78)) = Some (Some (inr 0, 0), Some 30, 1).
Proof. by vm_compute. Qed.

Print Assumptions C29_string_history.
Print Assumptions C29_string_exact.
Print Assumptions C29_string_independence.
Print Assumptions C30_string_null_terminated_partial.
Print Assumptions C30_append_throwing_iterator_refuted.
Print Assumptions C31_string_never_faults.
Print Assumptions C31_string_step_never_faults.
Print Assumptions C31_string_buffers_owned.
Print Assumptions C31_string_no_leak.
Print Assumptions C32_string_strong_guarantee.
Print Assumptions C33_append_own_range.
Print Assumptions C33_assign_own_range.
Print Assumptions C33_insert_own_range.
Print Assumptions C33_replace_own_range.
Print Assumptions C33_self_copy_assignment.
Print Assumptions C34_string_capacity.
Print Assumptions C34_shrink_to_fit.
Print Assumptions C41_string_noexcept_operations.
Print Assumptions C35_string_move_construct.
Print Assumptions C35_string_move_assign.
Print Assumptions C35_string_swap.
Print Assumptions C35_string_self_operations.
Print Assumptions C36_string_comparisons.
Print Assumptions C36_string_trichotomy.
Print Assumptions C36_string_hash.
Print Assumptions C79_string_max_size.
Print Assumptions C79_string_bounded.
Print Assumptions C37_oversized_rejected_partial.
Print Assumptions C37_length_error_partial.
Print Assumptions C37_count_overflow_refuted.
Print Assumptions C37_constructor_overflow_refuted.
Print Assumptions C38_push_back_copies.
Print Assumptions C40_string_concat.
Print Assumptions C40_string_substr.
Print Assumptions C40_string_substr_rvalue.
Print Assumptions C42_string_within_capacity.
Print Assumptions C42_string_reserve.
Print Assumptions C39_literal_without_null_partial.
Print Assumptions C39_literal_embedded_null_refuted.
Print Assumptions C65_literal_terminates_refuted.
Print Assumptions C38_amortised_constant_refuted.
Print Assumptions C72_string_dealloc.
Print Assumptions C72_string_released_by_owner.
Print Assumptions C72_string_other_module_faults.
