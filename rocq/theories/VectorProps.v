(** Properties C14-C24 and C26-C28: vector.

    Everything is stated for an arbitrary element type, arbitrary width of std::size_t and
    arbitrary failures of allocation and element construction ([VecCfg]), restricted only by
    the static_assert of vector.hpp:33 ([cfg_ok]). [reachable w m]: some history of calls
    within their contracts, starting from no vectors, led to the world [w], and the same
    history on plain sequences yields [m]. [shows w m]: size() and operator[] answer [m]. *)
From stdpp Require Import prelude gmap.
From Coq Require Import ZArith Lia.
From Verif Require Import Cpp VectorModel VectorSpec VectorMem VectorProofs VectorOps VectorOps2 VectorOps3
  VectorHistory VectorExtra.
Local Open Scope nat_scope.

(** a configuration for the examples: 8-bit std::size_t, max_size() = 127 *)
Definition cfg (af cf : nat → bool) : VecCfg :=
  {| V := nat; moved := λ _, 0; selfmove := λ _, 0; dflt := 7; wbits := 8; szT := 1;
     alloc_fails := af; ctor_fails := cf; running := λ b, b mod 2 |}.
Notation never_fails := (λ _ : nat, false).
Notation good := (cfg never_fails never_fails).
Lemma cfg_is_ok af cf : @cfg_ok (cfg af cf).
Proof. unfold cfg_ok. split; [cbn; lia|]. split; [cbn; lia|]. apply Nat.ltb_lt. by vm_compute. Qed.

Section props.
Context `{C : VecCfg} (Hcfg : cfg_ok).
Notation state := (gmap nat (list V)).

Lemma reachable_valid w m : reachable w m → wf w m.
Proof. apply reachable_wf, Hcfg. Qed.

(** ** C14 *)
Theorem C14_vector_history os :
  respects os init_world ∅ →
  match vrun os init_world with
  | Finished rs w => ∃ m, replay os rs ∅ m ∧ shows w m
  | Faulted _ => False
  | Aborted => ∃ x k, VShrink x ∈ os ∧ alloc_fails k = true
  end.
Proof.
  intros Hr. pose proof (vrun_ok Hcfg os _ _ wf_init Hr) as H.
  destruct (vrun os init_world) as [rs w|f|]; [|done|done].
  destruct H as (m & Hp & Hw & _). exists m. split; [done|by apply wf_shows].
Qed.
(** with no failing allocation or constructor and no demand above max_size() a history that
    makes sense for sequences finishes and gives exactly the results it gives for those *)
Theorem C14_vector_exact os rs m :
  (∀ k, alloc_fails k = false) → (∀ k, ctor_fails k = false) →
  srun os ∅ = Some (rs, m) → fits os ∅ →
  ∃ w, vrun os init_world = Finished rs w ∧ shows w m.
Proof.
  intros Ha Hc Hs Hf. destruct (vrun_exact Hcfg os _ _ _ _ Ha Hc wf_init Hs Hf) as (w & Hv & Hw).
  exists w. split; [done|by apply wf_shows].
Qed.
(** the sequences of a reachable world are what the vectors show *)
Theorem C14_reachable_shows w m : reachable w m → shows w m.
Proof. intros H. by apply wf_shows, reachable_valid. Qed.

(** ** C15 *)
Theorem C15_vector_never_faults os f : respects os init_world ∅ → vrun os init_world ≠ Faulted f.
Proof. intros Hr H. pose proof (vrun_ok Hcfg os _ _ wf_init Hr) as Hv. by rewrite H in Hv. Qed.
(** every live element belongs to exactly one vector, within its size *)
Theorem C15_vector_live_elements w m b c i a :
  reachable w m → heap w !! b = Some c → c !! i = Some (Some a) →
  ∃ x v, objs w !! x = Some v ∧ v_ptr v = Some b ∧ i < v_siz v ∧
    ∀ y u, objs w !! y = Some u → v_ptr u = Some b → y = x.
Proof.
  intros Hre Hb Hi. pose proof (proj1 (reachable_valid _ _ Hre)) as Hv.
  destruct (inv_own _ _ _ Hv _ _ Hb) as (x & v & Hx & Hp). exists x, v. sp; try done.
  - destruct (inv_some _ _ _ Hv _ _ Hx) as (l & Hl & Hr). rewrite (vrep_siz _ _ _ Hr).
    rewrite (vrep_block _ _ _ _ Hr Hp) in Hb. injection Hb as <-.
    destruct (decide (i < length l)) as [|Hge]; [done|]. exfalso. unfold cells in Hi.
    rewrite lookup_app_r in Hi by (rewrite fmap_length; lia).
    apply lookup_replicate in Hi as [? _]. done.
  - intros y u Hy Hu. by eapply (inv_sep _ _ _ Hv).
Qed.
Theorem C15_vector_no_leak w : reachable w ∅ → heap w = ∅ ∧ objs w = ∅.
Proof.
  intros Hre. pose proof (proj1 (reachable_valid _ _ Hre)) as Hv.
  assert (Ho : objs w = ∅).
  { apply map_empty. intros x. destruct (objs w !! x) as [v|] eqn:Hx; [|done].
    by destruct (inv_some _ _ _ Hv _ _ Hx) as (l & ? & _). }
  split; [|done]. apply map_empty. intros b. destruct (heap w !! b) as [c|] eqn:Hb; [|done].
  destruct (inv_own _ _ _ Hv _ _ Hb) as (x & v & Hx & _). by rewrite Ho in Hx.
Qed.

(** ** C72 *)
(** block [b] was allocated by module [running b]: the vector that owns it points to the
    deallocation function of that module, whichever modules the calls so far ran in *)
Theorem C72_vector_dealloc w m x v :
  reachable w m → objs w !! x = Some v → v_dealloc v = running <$> v_ptr v.
Proof.
  intros Hre Hx. pose proof (proj1 (reachable_valid _ _ Hre)) as Hv.
  destruct (inv_some _ _ _ Hv _ _ Hx) as (l & _ & Hr). unfold vrep in Hr.
  destruct (v_ptr v) as [b|] eqn:Hp; cbn [fmap option_fmap option_map]; [apply Hr|]. by destruct Hr as [-> _].
Qed.
(** no call releases memory with the function of another module *)
Theorem C72_vector_released_by_owner w m o :
  reachable w m → sstep o m ≠ Bad → vexec o w ≠ Stuck WrongModule.
Proof.
  intros Hre Hb Hx. pose proof (call_ok Hcfg o w m (reachable_valid _ _ Hre) Hb) as H. by rewrite Hx in H.
Qed.
(** the function matters: with that of any other module the destructor would be wrong *)
Theorem C72_vector_other_module_faults w b c d cap :
  heap w !! b = Some c → d ≠ running b → storage_dtor (Vec (Some d) (Some b) cap 0) w = Stuck WrongModule.
Proof.
  intros Hb Hd. unfold storage_dtor. cbn [v_dealloc v_ptr v_siz destroy_n]. unfold bind, ret, free. rewrite Hb.
  rewrite (proj2 (Nat.eqb_neq _ _)) by done. done.
Qed.

(** ** C16 *)
Theorem C16_vector_strong_guarantee w m o e w' :
  reachable w m → sstep o m ≠ Bad → vexec o w = Exn e w' →
  objs w' = objs w ∧ heap w' = heap w ∧ shows w' m ∧ (sstep o m = Throws e ∨ explained o m w w' e).
Proof.
  intros Hre Hb Hx. pose proof (reachable_valid _ _ Hre) as Hw. pose proof (call_ok Hcfg o w m Hw Hb) as H. rewrite Hx in H.
  destruct H as (Hw' & Ho & _ & Hy). sp; [done|by eapply wf_heap_unique|by apply wf_shows|done].
Qed.

(** ** C17 *)
(** the call either has its effect or throws and has none *)
Definition yields {A} (r : res world A) (m m' : state) : Prop :=
  match r with Ok _ w' => shows w' m' | Exn _ w' => shows w' m | _ => False end.
Lemma step_yields o w m r m' : wf w m → sstep o m = Done r m' → (∀ x, o ≠ VShrink x) →
  yields (vexec o w) m m'.
Proof.
  intros Hw Hs Ho. assert (sstep o m ≠ Bad) as Hb by congruence.
  pose proof (call_ok Hcfg o w m Hw Hb) as H. unfold step_ok, yields in *.
  destruct (vexec o w) as [r' w'|e w'|f|].
  - destruct H as (m1 & Hd & Hw' & _). rewrite Hs in Hd. injection Hd as <- <-. by apply wf_shows.
  - destruct H as (Hw' & _). by apply wf_shows.
  - done.
  - destruct H as (x & -> & _). by eapply Ho.
Qed.
Theorem C17_push_back_own_element w m x l i a :
  reachable w m → m !! x = Some l → l !! i = Some a →
  yields (vexec (VPushBack x (ECopy (CElem x i))) w) m (<[x:=l ++ [a]]> m).
Proof.
  intros Hre Hx Hi. pose proof (reachable_valid _ _ Hre) as Hw.
  eapply step_yields; [done| |done]. cbn [sstep]. rewrite Hx. cbn [semplace sarg]. rewrite Hx, Hi, decide_True by done.
  unfold insert_at. by rewrite firstn_all, drop_all, app_nil_r.
Qed.
(** push_back(std::move(v[i])): the moved-from element stays in place *)
Theorem C17_push_back_own_moved w m x l i a :
  reachable w m → m !! x = Some l → l !! i = Some a →
  yields (vexec (VPushBack x (EMove x i)) w) m (<[x:=<[i:=moved a]> l ++ [a]]> m).
Proof.
  intros Hre Hx Hi. pose proof (reachable_valid _ _ Hre) as Hw.
  eapply step_yields; [done| |done]. cbn [sstep]. rewrite Hx. cbn [semplace]. rewrite Hx, Hi, lookup_insert.
  rewrite decide_True by (by rewrite insert_length). rewrite insert_insert.
  unfold insert_at. rewrite <-(insert_length l i (moved a)). by rewrite firstn_all, drop_all, app_nil_r.
Qed.
Theorem C17_insert_own_element w m x l i k n a :
  reachable w m → m !! x = Some l → l !! i = Some a → k ≤ length l → countable l n →
  yields (vexec (VInsertFill x k n (CElem x i)) w) m (<[x:=take k l ++ replicate n a ++ drop k l]> m).
Proof.
  intros Hre Hx Hi Hk Hc. pose proof (reachable_valid _ _ Hre) as Hw.
  eapply step_yields; [done| |done]. cbn [sstep sarg]. rewrite Hx, Hi, decide_True by done. done.
Qed.
Theorem C17_insert_own_range w m x l i n k :
  reachable w m → m !! x = Some l → i + n ≤ length l → k ≤ length l →
  yields (vexec (VInsertRange x k (RElems x i n)) w) m (<[x:=take k l ++ take n (drop i l) ++ drop k l]> m).
Proof.
  intros Hre Hx Hi Hk. pose proof (reachable_valid _ _ Hre) as Hw.
  eapply step_yields; [done| |done]. cbn [sstep srange]. rewrite Hx, decide_True by done. rewrite decide_True by done. done.
Qed.
Theorem C17_assign_own_range w m x l i n :
  reachable w m → m !! x = Some l → i + n ≤ length l →
  yields (vexec (VAssignRange x (RElems x i n)) w) m (<[x:=take n (drop i l)]> m).
Proof.
  intros Hre Hx Hi. pose proof (reachable_valid _ _ Hre) as Hw.
  eapply step_yields; [done| |done]. cbn [sstep srange]. rewrite Hx, decide_True by done. done.
Qed.
Theorem C17_assign_own_element w m x l i n a :
  reachable w m → m !! x = Some l → l !! i = Some a → countable l n →
  yields (vexec (VAssignFill x n (CElem x i)) w) m (<[x:=replicate n a]> m).
Proof.
  intros Hre Hx Hi Hc. pose proof (reachable_valid _ _ Hre) as Hw.
  eapply step_yields; [done| |done]. cbn [sstep sarg]. rewrite Hx, Hi, decide_True by done. done.
Qed.
Theorem C17_resize_own_element w m x l i n a :
  reachable w m → m !! x = Some l → l !! i = Some a →
  yields (vexec (VResizeFill x n (CElem x i)) w) m (<[x:=take n l ++ replicate (n - length l) a]> m).
Proof.
  intros Hre Hx Hi. pose proof (reachable_valid _ _ Hre) as Hw.
  eapply step_yields; [done| |done]. cbn [sstep sarg]. rewrite Hx, Hi. done.
Qed.

(** ** C18 *)
Theorem C18_vector_capacity_bounds w m x v :
  reachable w m → objs w !! x = Some v →
  v_siz v ≤ v_cap v ≤ max_cap ∧ (v_cap v = 0 ∨ 10 ≤ v_cap v) ∧ (v_ptr v = None ↔ v_cap v = 0) ∧
  vec_size x w = Ok (v_siz v) w ∧ vec_capacity x w = Ok (v_cap v) w ∧ vec_data x w = Ok (v_ptr v) w.
Proof.
  intros Hre Hx. pose proof (reachable_valid _ _ Hre) as [Hv _].
  destruct (inv_some _ _ _ Hv _ _ Hx) as (l & Hl & Hr).
  assert (v_siz v ≤ v_cap v ≤ max_cap ∧ (v_cap v = 0 ∨ 10 ≤ v_cap v) ∧ (v_ptr v = None ↔ v_cap v = 0)) as (? & ? & ?).
  { unfold vrep in Hr. destruct (v_ptr v) as [b|] eqn:Hb.
    - destruct Hr as (_ & _ & -> & ? & ?). unfold min_cap in *. sp; [lia..|]. split; [done|lia].
    - destruct Hr as [-> ->]. cbn [v_siz v_cap null_vec]. sp; [lia..|done]. }
  sp; try done; try lia; unfold vec_size, vec_capacity, vec_data; by erewrite bind_ok by by apply get_vec_eq.
Qed.

(** ** C19 *)
Theorem C19_vector_within_capacity w m o x n v :
  reachable w m → sstep o m ≠ Bad → puts o m = Some (x, n) → objs w !! x = Some v → v_siz v + n ≤ v_cap v →
  match vexec o w with
  | Ok _ w' => ∃ s, objs w' = <[x:=Vec (v_dealloc v) (v_ptr v) (v_cap v) s]> (objs w) ∧ nalloc w' = nalloc w
  | Exn _ w' => objs w' = objs w ∧ nalloc w' = nalloc w
  | _ => False
  end.
Proof.
  intros Hre Hb Hp Hx Hfit. exact (stays_step Hcfg _ _ _ _ _ _ (reachable_valid _ _ Hre) Hb Hp Hx Hfit).
Qed.

(** ** C20 *)
Theorem C20_vector_reserve w m x l n w1 :
  reachable w m → m !! x = Some l → vec_reserve x n w = Ok tt w1 →
  shows w1 m ∧ ∃ v1, objs w1 !! x = Some v1 ∧ n ≤ v_cap v1 ∧
  ∀ args, length l + length args ≤ n → respects (VPushBack x <$> args) w1 m →
    ∃ rs w2 v2, vrun (VPushBack x <$> args) w1 = Finished rs w2 ∧ nalloc w2 = nalloc w1 ∧
      objs w2 !! x = Some v2 ∧ v_ptr v2 = v_ptr v1 ∧ v_cap v2 = v_cap v1.
Proof.
  intros Hre Hl Hrv. pose proof (reachable_valid _ _ Hre) as Hw.
  destruct (wf_get _ _ _ _ Hw Hl) as (v & Hx & Hr).
  pose proof (reserve_run Hcfg x n w m l v Hw Hl Hx) as H. unfold run_to in H. rewrite Hrv in H.
  destruct H as (Hw1 & _ & H).
  assert (∃ v1, objs w1 !! x = Some v1 ∧ n ≤ v_cap v1) as (v1 & Hx1 & Hn).
  { destruct H as [(? & ->)|(? & Ho & _)]; [eauto|]. rewrite Ho, lookup_insert. eexists. split; [done|].
    cbn [v_cap]. lia. }
  split; [by apply wf_shows|]. exists v1. sp; [done|done|]. intros args Ha Hrs.
  eapply (pushes_stay Hcfg); [done..|lia|done].
Qed.

(** ** C21 *)
(** what resize does: shrinking keeps the buffer, growing always reallocates, to a capacity
    of exactly max(10, n) *)
Theorem C21_resize_behaviour w m x l v n w' :
  reachable w m → m !! x = Some l → objs w !! x = Some v → vec_resize x n w = Ok tt w' →
  ∃ v', objs w' !! x = Some v' ∧ v_siz v' = n ∧
    if decide (n ≤ length l) then v_cap v' = v_cap v ∧ v_ptr v' = v_ptr v
    else v_cap v' = 10 `max` n ∧ v_ptr v' ≠ v_ptr v.
Proof.
  intros Hre Hl Hx Hrs. pose proof (reachable_valid _ _ Hre) as Hw.
  pose proof (resize_run Hcfg x n w m l v Hw Hl Hx) as H. unfold run_to in H. rewrite Hrs in H.
  destruct H as (Hw1 & _ & [(? & Ho & _)|(? & Ho & _)]); rewrite Ho, lookup_insert; eexists; (split; [done|]).
  - rewrite decide_True by done. done.
  - rewrite decide_False by lia. sp; [done|done|]. cbn [v_ptr].
    pose proof (wf_other _ _ _ _ Hw Hx) as Hoth. unfold other_block in Hoth. congruence.
Qed.
(** hence a reserved capacity is lost whenever resize grows the vector to less *)
Theorem C21_resize_loses_capacity_refuted w m x l v n w' :
  reachable w m → m !! x = Some l → objs w !! x = Some v → length l < n → 10 `max` n < v_cap v →
  vec_resize x n w = Ok tt w' →
  ∃ v', objs w' !! x = Some v' ∧ v_cap v' < v_cap v ∧ v_ptr v' ≠ v_ptr v.
Proof.
  intros Hre Hl Hx Hn Hc Hrs. destruct (C21_resize_behaviour _ _ _ _ _ _ _ Hre Hl Hx Hrs) as (v' & ? & _ & H).
  rewrite decide_False in H by lia. destruct H as [E ?]. exists v'. sp; [done|lia|done].
Qed.

(** ** C22 *)
Theorem C22_push_back_amortised w m x args :
  reachable w m → m !! x = Some [] → respects (VPushBack x <$> args) w m →
  ∃ rs w', vrun (VPushBack x <$> args) w = Finished rs w' ∧ nreloc w' ≤ nreloc w + 2 * length args.
Proof.
  intros Hre Hl Hrs. pose proof (reachable_valid _ _ Hre) as Hw. destruct (wf_get _ _ _ _ Hw Hl) as (v & Hx & _).
  apply (pushes_reloc Hcfg x args (nreloc w) 0 0 w m [] v); try done; [lia..|by left].
Qed.

(** ** C23 *)
Theorem C23_vector_at w m x l i :
  reachable w m → m !! x = Some l →
  vec_at x i w = match l !! i with Some a => Ok a w | None => Exn OutOfRange w end.
Proof.
  intros Hre Hl. pose proof (reachable_valid _ _ Hre) as Hw. destruct (wf_get _ _ _ _ Hw Hl) as (v & Hx & Hr).
  unfold vec_at. erewrite bind_ok by by apply get_vec_eq. rewrite (vrep_siz _ _ _ Hr).
  destruct (l !! i) as [a|] eqn:Hi.
  - pose proof (lookup_lt_Some _ _ _ Hi). rewrite (proj2 (Nat.leb_gt _ _)) by lia. by eapply index_eq.
  - apply lookup_ge_None in Hi. by rewrite (proj2 (Nat.leb_le _ _)) by lia.
Qed.
Theorem C23_vector_access w m x l :
  reachable w m → m !! x = Some l →
  (∀ i a, l !! i = Some a → vec_index x i w = Ok a w) ∧
  (∀ a, head l = Some a → vec_front x w = Ok a w) ∧
  (∀ a, last l = Some a → vec_back x w = Ok a w) ∧
  vec_size x w = Ok (length l) w ∧ vec_empty x w = Ok (bool_decide (l = [])) w.
Proof.
  intros Hre Hl. pose proof (reachable_valid _ _ Hre) as Hw. destruct (wf_get _ _ _ _ Hw Hl) as (v & Hx & Hr).
  pose proof (vrep_siz _ _ _ Hr) as Hs. sp.
  - intros i a Hi. by eapply index_eq.
  - intros a Ha. destruct l; [done|]. cbn in Ha. simplify_eq. unfold vec_front. by eapply index_eq.
  - intros a Ha. unfold vec_back. erewrite bind_ok by by apply get_vec_eq. rewrite Hs.
    eapply index_eq; [done|done|]. by rewrite last_lookup, <-Nat.sub_1_r in Ha.
  - unfold vec_size. erewrite bind_ok by by apply get_vec_eq. by rewrite Hs.
  - unfold vec_empty, vec_size, bind. rewrite (get_vec_eq _ _ _ Hx). unfold ret. rewrite Hs.
    do 2 f_equal. by destruct l.
Qed.

(** ** C24 *)
Theorem C24_copy_equals_source w m x y l w' :
  reachable w m → m !! y = Some l →
  (m !! x = None → vec_new_copy x y w = Ok tt w' → shows w' (<[x:=l]> m)) ∧
  (is_Some (m !! x) → vec_copy_assign x y w = Ok tt w' → shows w' (<[x:=l]> m)).
Proof.
  intros Hre Hy. pose proof (reachable_valid _ _ Hre) as Hw. split.
  - intros Hx Hc. pose proof (step_yields (VNewCopy x y) w m OUnit (<[x:=l]> m) Hw) as H.
    cbn [sstep] in H. unfold snew in H. rewrite Hx, Hy in H. specialize (H eq_refl ltac:(done)).
    cbn [vexec] in H. unfold obs_unit in H. rewrite (bind_ok _ _ _ _ _ Hc) in H. exact H.
  - intros [lx Hx] Hc. pose proof (step_yields (VCopyAssign x y) w m OUnit (<[x:=l]> m) Hw) as H.
    cbn [sstep] in H. rewrite Hx, Hy in H. specialize (H eq_refl ltac:(done)).
    cbn [vexec] in H. unfold obs_unit in H. rewrite (bind_ok _ _ _ _ _ Hc) in H. exact H.
Qed.
(** whatever is done to other vectors (copies, sources, ...), a vector that is not itself
    written to keeps its elements *)
Theorem C24_independence w m os rs w' :
  reachable w m → respects os w m → vrun os w = Finished rs w' →
  ∃ m', shows w' m' ∧ ∀ z, (∀ o, o ∈ os → z ∉ writes o) → m' !! z = m !! z.
Proof.
  intros Hre Hr Hv. pose proof (vrun_ok Hcfg os _ _ (reachable_valid _ _ Hre) Hr) as H. rewrite Hv in H.
  destruct H as (m' & Hp & Hw' & _). exists m'. split; [by apply wf_shows|]. intros z Hz. by eapply replay_frame.
Qed.
Theorem C24_move_transfers w m x y l v :
  reachable w m → m !! y = Some l → objs w !! y = Some v → x ≠ y →
  ∃ w', (m !! x = None → vec_new_move x y w = Ok tt w') ∧ (is_Some (m !! x) → vec_move_assign x y w = Ok tt w') ∧
    objs w' !! x = Some v ∧ objs w' !! y = Some null_vec ∧ shows w' (<[x:=l]> (<[y:=[]]> m)) ∧
    (∀ b, v_ptr v = Some b → heap w' !! b = heap w !! b) ∧ nalloc w' = nalloc w ∧ nctor w' = nctor w ∧ nreloc w' = nreloc w.
Proof.
  intros Hre Hy Hv Hne. pose proof (reachable_valid _ _ Hre) as Hw.
  assert (Hgo : ∀ w', wf w' (<[x:=l]> (<[y:=[]]> m)) → objs w' !! x = Some v →
      ∀ b, v_ptr v = Some b → heap w' !! b = heap w !! b).
  { intros w' Hw' Hx b Hb.
    pose proof (wf_rep _ _ _ _ _ Hw Hv Hy) as Hr. pose proof (wf_rep _ _ _ _ l Hw' Hx ltac:(apply lookup_insert)) as Hr'.
    by rewrite (vrep_block _ _ _ _ Hr Hb), (vrep_block _ _ _ _ Hr' Hb). }
  destruct (m !! x) as [lx|] eqn:Hx.
  - destruct (wf_get _ _ _ _ Hw Hx) as (vx & Hvx & _).
    pose proof (move_assign_run x y w m lx l vx v never Hw Hx Hy Hvx Hv) as H.
    rewrite !decide_False in H by done. unfold run_to in H.
    destruct (vec_move_assign x y w) as [[] w'| | |]; [|done..]. destruct H as (Hw' & _ & Ho & ? & ? & ?).
    assert (objs w' !! x = Some v) by (rewrite Ho; by simplify_map_eq).
    exists w'. sp; try done; [rewrite Ho; by simplify_map_eq|by apply wf_shows|by apply Hgo].
  - pose proof (new_move_run x y w m l v never Hw Hx Hy Hv) as H. unfold run_to in H.
    destruct (vec_new_move x y w) as [[] w'| | |]; [|done..]. destruct H as (Hw' & _ & Ho & ? & ? & ? & ?).
    assert (objs w' !! x = Some v) by (rewrite Ho; by simplify_map_eq).
    exists w'. sp; try done; [by intros []|rewrite Ho; by simplify_map_eq|by apply wf_shows|by apply Hgo].
Qed.
Theorem C24_self_operations w m x l :
  reachable w m → m !! x = Some l →
  vec_copy_assign x x w = Ok tt w ∧ vec_move_assign x x w = Ok tt w ∧ vec_swap x x w = Ok tt w.
Proof.
  intros Hre Hl. pose proof (reachable_valid _ _ Hre) as Hw. destruct (wf_get _ _ _ _ Hw Hl) as (v & Hx & _).
  unfold vec_copy_assign, vec_move_assign, vec_swap. rewrite !decide_True by done. sp.
  - by erewrite bind_ok by by apply get_vec_eq.
  - by erewrite bind_ok by by apply get_vec_eq.
  - do 2 erewrite bind_ok by by apply get_vec_eq. rewrite !vec_eta. unfold put_vec, bind. f_equal.
    destruct w as [o h nb nc na nr]. unfold with_objs. cbn [objs heap nextb nctor nalloc nreloc] in *.
    by rewrite !insert_id by (rewrite ?lookup_insert; done).
Qed.

(** ** C79 *)
(** max_size() elements are at most the largest object, and one more are not *)
Theorem C79_vector_max_size n : n ≤ max_cap ↔ (Z.of_nat n * Z.of_nat szT ≤ 2 ^ (Z.of_nat wbits - 1) - 1)%Z.
Proof.
  destruct Hcfg as (Hs & Hw & Hm). unfold max_cap in *.
  assert (Hq : (0 < (2 ^ (Z.of_nat wbits - 1) - 1) `div` Z.of_nat szT)%Z) by lia.
  rewrite Nat2Z.inj_le, Z2Nat.id by lia. rewrite (Z.mul_comm (Z.of_nat n)). split; intros H.
  - transitivity (Z.of_nat szT * ((2 ^ (Z.of_nat wbits - 1) - 1) `div` Z.of_nat szT))%Z; [nia|]. apply Z.mul_div_le. lia.
  - apply Z.div_le_lower_bound; lia.
Qed.
Theorem C79_vector_bounded w m x l :
  reachable w m → m !! x = Some l → (Z.of_nat (length l) * Z.of_nat szT ≤ 2 ^ (Z.of_nat wbits - 1) - 1)%Z.
Proof. intros Hre Hl. apply C79_vector_max_size. by eapply (len_bound _ _ _ _ (reachable_valid _ _ Hre)). Qed.

(** ** C26 *)
Theorem C26_oversized_rejected_partial w m x l n i r vs a u :
  reachable w m → m !! x = Some l →
  (max_cap < n → vec_resize x n w = Exn LengthError w) ∧
  (max_cap < n → sarg m a = Some u → vec_resize_fill x n a w = Exn LengthError w) ∧
  (max_cap < n → vec_reserve x n w = Exn LengthError w) ∧
  (max_cap < n → countable l n → sarg m a = Some u → vec_assign_fill x n a w = Exn LengthError w) ∧
  (max_cap < length l + n → countable l n → sarg m a = Some u → vec_insert_fill x i n a w = Exn LengthError w) ∧
  (srange m r = Some vs → max_cap < length vs → vec_assign_range x r w = Exn LengthError w) ∧
  (srange m r = Some vs → max_cap < length l + length vs → vec_insert_range x i r w = Exn LengthError w).
Proof.
  intros Hre Hl. pose proof (reachable_valid _ _ Hre) as Hw. destruct (wf_get _ _ _ _ Hw Hl) as (v & Hx & Hr).
  pose proof (vrep_siz _ _ _ Hr) as Hs. pose proof (vrep_max _ _ _ Hr) as Hm.
  sp.
  - intros Hn. by eapply resize_too_big.
  - intros Hn Ha. destruct (bind_arg_eq _ _ _ _ Hw Ha) as (s & Hb & _).
    unfold vec_resize_fill. erewrite bind_ok by exact Hb. by eapply resize_too_big.
  - intros Hn. unfold vec_reserve. erewrite bind_ok by by apply get_vec_eq.
    rewrite (proj2 (Nat.leb_gt _ _)) by lia. by apply bind_exn, storage_new_too_big.
  - intros Hn Hc Ha. destruct (bind_arg_eq _ _ _ _ Hw Ha) as (s & Hb & _).
    unfold vec_assign_fill. erewrite bind_ok by exact Hb. by eapply assign_too_big.
  - intros Hn Hc Ha. destruct (bind_arg_eq _ _ _ _ Hw Ha) as (s & Hb & _).
    unfold vec_insert_fill. erewrite bind_ok by exact Hb. eapply (insert_too_big Hcfg); [done..|lia|unfold grown; lia].
  - intros Hrg Hn. destruct (bind_range_eq Hcfg _ _ _ _ Hw Hrg) as (f & Hb & _ & _ & Hlt).
    unfold vec_assign_range. erewrite bind_ok by exact Hb. cbn [fst snd].
    eapply assign_too_big; [done..| |done]. by eapply (range_countable Hcfg).
  - intros Hrg Hn. destruct (bind_range_eq Hcfg _ _ _ _ Hw Hrg) as (f & Hb & _ & _ & Hlt).
    unfold vec_insert_range. erewrite bind_ok by exact Hb. cbn [fst snd].
    eapply (insert_too_big Hcfg); [done..|by eapply (range_countable Hcfg)|lia|unfold grown; lia].
Qed.
Theorem C26_oversized_construction_rejected w m x n a u :
  reachable w m → m !! x = None → max_cap < n →
  vec_new_count x n w = Exn LengthError w ∧
  (sarg m a = Some u → vec_new_fill x n a w = Exn LengthError w).
Proof.
  intros Hre Hx Hn. pose proof (reachable_valid _ _ Hre) as Hw.
  pose proof (wf_new _ _ _ Hw Hx) as Hw1. split.
  - eapply construct_vec_exn; [done|done|]. eapply resize_too_big; [exact Hw1|apply lookup_insert|apply lookup_insert|done].
  - intros Ha. eapply construct_vec_exn; [done|done|].
    assert (Ha1 : sarg (<[x:=[]]> m) a = Some u).
    { destruct a as [u'|y i]; cbn [sarg] in *; [done|]. rewrite lookup_insert_ne; [done|]. intros ->. by rewrite Hx in Ha. }
    destruct (bind_arg_eq _ _ _ _ Hw1 Ha1) as (s & Hb & _).
    unfold vec_resize_fill. erewrite bind_ok by exact Hb.
    eapply resize_too_big; [exact Hw1|apply lookup_insert|apply lookup_insert|done].
Qed.
(** A count for which size() + count overflows std::size_t is not rejected: the sum wraps,
    the in-place path is taken and elements are constructed beyond the end of the buffer. *)
Theorem C26_count_overflow_refuted w m x l n i u :
  reachable w m → m !! x = Some l → (Z.of_nat n < 2 ^ Z.of_nat wbits ≤ Z.of_nat (length l) + Z.of_nat n)%Z →
  (∀ k, ctor_fails k = false) →
  vec_insert_fill x i n (CVal u) w = Stuck OutOfBounds ∧ vec_assign_fill x n (CVal u) w = Stuck OutOfBounds.
Proof.
  intros Hre Hl [Hn Hov] Hk. pose proof (reachable_valid _ _ Hre) as Hw. destruct (wf_get _ _ _ _ Hw Hl) as (v & Hx & _).
  assert (¬ countable l n) by (unfold countable; lia).
  split; [by eapply (insert_overflow Hcfg)|by eapply (assign_overflow Hcfg)].
Qed.
(** Conversely a full vector holding more than half of max_size() cannot grow, although the
    result would be within max_size(). *)
Theorem C26_growth_refused_early w m x l v i u :
  reachable w m → m !! x = Some l → objs w !! x = Some v → v_cap v = length l → max_cap < 2 * length l →
  vec_insert_fill x i 1 (CVal u) w = Exn LengthError w.
Proof.
  intros Hre Hl Hx Hc Hm. pose proof (reachable_valid _ _ Hre) as Hw.
  unfold vec_insert_fill. erewrite bind_ok by done.
  eapply (insert_too_big Hcfg); [done..|by eapply (count1 Hcfg)|lia|unfold grown; lia].
Qed.

(** ** C27 *)
Theorem C27_shrink_to_fit_partial w m x l v :
  reachable w m → m !! x = Some l → objs w !! x = Some v → alloc_fails (nalloc w) = false →
  ∃ w' v', vec_shrink_to_fit x w = Ok tt w' ∧ shows w' m ∧ objs w' = <[x:=v']> (objs w) ∧
    (if decide (v_cap v ≤ 2 * length l) then v' = v else v_cap v' ≤ 10 `max` length l) ∧ v_cap v' ≤ v_cap v.
Proof.
  intros Hre Hl Hx Ha. pose proof (reachable_valid _ _ Hre) as Hw.
  pose proof (wf_rep _ _ _ _ _ Hw Hx Hl) as Hr.
  assert (Hcap : v_cap v = 0 ∨ 10 ≤ v_cap v).
  { unfold vrep, min_cap in Hr. destruct (v_ptr v); [right; naive_solver|]. destruct Hr as [-> _]. by left. }
  pose proof (shrink_run Hcfg x w m l v never Hw Hl Hx ltac:(by right; right)) as H. unfold run_to in H.
  destruct (vec_shrink_to_fit x w) as [[] w'| | |]; [|done..].
  destruct H as (Hw' & _ & [(? & ->)|[(? & -> & Ho)|(? & ? & Ho)]]).
  - exists w, v. rewrite decide_True by done. sp; [done|by apply wf_shows|by rewrite insert_id|done|lia].
  - exists w', null_vec. rewrite decide_False by lia. sp; [done|by apply wf_shows|done|cbn [v_cap null_vec length]; lia..].
  - exists w', (Vec (Some (running (nextb w))) (Some (nextb w)) (min_cap `max` length l) (length l)). rewrite decide_False by lia.
    unfold min_cap. cbn [v_cap]. sp; [done|by apply wf_shows|done|lia|lia].
Qed.
(** shrink_to_fit is noexcept but allocates: if the allocation fails the program is terminated *)
Theorem C27_shrink_to_fit_terminates_refuted w m x l v :
  reachable w m → m !! x = Some l → objs w !! x = Some v →
  l ≠ [] → 2 * length l < v_cap v → alloc_fails (nalloc w) = true →
  vec_shrink_to_fit x w = Terminated.
Proof.
  intros Hre Hl Hx Hne Hlt Ha. eapply (shrink_terminates Hcfg); [by apply reachable_valid|done..].
Qed.

(** ** C28 *)
Theorem C28_erase_range_partial w m x l i j :
  reachable w m → m !! x = Some l → i ≤ j ≤ length l →
  i < j ∨ i = length l ∨ (∀ a, selfmove a = a) →
  ∃ w', vec_erase x i j w = Ok i w' ∧ shows w' (<[x:=take i l ++ drop j l]> m).
Proof.
  intros Hre Hl [Hij Hj] Hc. pose proof (reachable_valid _ _ Hre) as Hw. destruct (wf_get _ _ _ _ Hw Hl) as (v & Hx & Hr).
  pose proof (erase_run x i j w m l v never Hw Hl Hx Hij Hj) as H. unfold run_to in H.
  destruct (vec_erase x i j w) as [r w'| | |]; [|done..]. destruct H as (-> & Hw' & _).
  exists w'. split; [done|]. apply wf_shows.
  assert ((if decide (i = j) then selfmove <$> drop j l else drop j l) = drop j l) as E; [|by rewrite E in Hw'].
  case_decide as Hd; [|done]. destruct Hc as [?|[->|Hid]]; [lia|by rewrite drop_ge by lia|].
  rewrite <-(list_fmap_id (drop j l)) at 2. apply list_fmap_ext; try done; intros; apply Hid.
Qed.
(** erase(it, it) assigns every element from [it] on to itself as an rvalue *)
Theorem C28_erase_empty_range_behaviour w m x l i :
  reachable w m → m !! x = Some l → i ≤ length l →
  ∃ w', vec_erase x i i w = Ok i w' ∧ shows w' (<[x:=take i l ++ (selfmove <$> drop i l)]> m).
Proof.
  intros Hre Hl Hi. pose proof (reachable_valid _ _ Hre) as Hw. destruct (wf_get _ _ _ _ Hw Hl) as (v & Hx & Hr).
  pose proof (erase_run x i i w m l v never Hw Hl Hx (Nat.le_refl _) Hi) as H. unfold run_to in H.
  destruct (vec_erase x i i w) as [r w'| | |]; [|done..]. destruct H as (-> & Hw' & _).
  exists w'. split; [done|]. apply wf_shows. by rewrite decide_True in Hw' by done.
Qed.
Theorem C28_erase_empty_range_refuted w m x l i a :
  reachable w m → m !! x = Some l → l !! i = Some a → selfmove a ≠ a →
  ∃ w', vec_erase x i i w = Ok i w' ∧ vec_index x i w' = Ok (selfmove a) w' ∧ vec_index x i w = Ok a w.
Proof.
  intros Hre Hl Hi Hne. pose proof (lookup_lt_Some _ _ _ Hi) as Hlt.
  destruct (C28_erase_empty_range_behaviour w m x l i Hre Hl ltac:(lia)) as (w' & He & Hs). exists w'.
  split; [done|]. specialize (Hs x). rewrite lookup_insert in Hs. destruct Hs as [_ Hs]. split.
  - apply Hs. rewrite lookup_app_r by (rewrite take_length; lia). rewrite take_length, Nat.min_l by lia.
    rewrite Nat.sub_diag, list_lookup_fmap, lookup_drop, Nat.add_0_r, Hi. done.
  - eapply index_eq; [by apply reachable_valid|done|done].
Qed.
End props.

(** ** Examples *)
(** [check C f os]: run [os] under configuration [C] within contracts, then look at the
    resulting world and sequences with [f] *)
Definition check (C : VecCfg) {A} (f : world → gmap nat (list V) → A) (os : list vop) : option A :=
  (λ p : world * gmap nat (list V), f p.1 p.2) <$> follow os init_world ∅.
Lemma check_reachable af cf (f : @world (cfg af cf) → gmap nat (list nat) → bool) os :
  @check (cfg af cf) _ f os = Some true → ∃ w m, @reachable (cfg af cf) w m ∧ f w m = true.
Proof.
  unfold check. destruct (follow os init_world ∅) as [[w m]|] eqn:E; [|done]. cbn. intros [= H].
  exists w, m. split; [|done]. apply (follow_reachable (cfg_is_ok af cf) os). exact E.
Qed.
Definition is (l : list nat) (o : option (list nat)) : bool := bool_decide (o = Some l).
Definition got {S} (r : res S nat) (a : nat) : bool := match r with Ok b _ => a =? b | _ => false end.
Definition val {af cf} (a : nat) : @earg (cfg af cf) := @ECopy (cfg af cf) (@CVal (cfg af cf) a).
Definition pushes {af cf} (x : nat) (l : list nat) : list (@vop (cfg af cf)) :=
  (λ a, @VPushBack (cfg af cf) x (val a)) <$> l.

Example C14_case :
  let os : list (@vop good) :=
    [VNew 0] ++ pushes 0 [1; 2; 3] ++
    [VPushBack 0 (EMove 0 1); VNewCopy 1 0; VInsertFill 1 1 2 (CElem 1 0); VErase 0 0 2; VSwap 0 1;
     VInsertRange 0 2 (RElems 0 1 3); VNewMove 2 0; VAssignInput 0 ([9; 8] : list (@V good)); VResize 0 4; VAt 0 4; VPopBack 2;
     VIndex 2 1; VSize 2; VBack 0; VShrink 2; VDestroy 1] in
  (fst <$> srun os ∅) = Some [OUnit; ONat 0; ONat 1; ONat 2; ONat 3; OUnit; ONat 1; ONat 0; OUnit; ONat 2;
     OUnit; OUnit; OUnit; OThrew OutOfRange; OUnit; OVal (1 : @V good); ONat 8; OVal (7 : @V good); OUnit; OUnit] ∧
  match vrun os init_world with Finished rs _ => Some rs = (fst <$> srun os ∅) | _ => False end ∧
  respects os init_world ∅ ∧ fits os ∅.
Proof. vm_compute. repeat split; try lia. Qed.

(** the third construction and the second allocation fail *)
Example C14_failing_case :
  let C := cfg (λ k, k =? 1) (λ k, k =? 2) in
  let os : list (@vop C) := [VNew 0; VNewFill 1 1 (CVal (4 : @V C)); VPushBack 1 (ECopy (CElem 1 0)); VNewCopy 2 1; VReserve 1 30;
     VPushBack 1 (ECopy (CVal (5 : @V C))); VPushBack 1 (ECopy (CVal (6 : @V C))); VBack 1] in
  respects os init_world ∅ ∧
  match vrun os init_world with
  | Finished rs _ => rs = [OUnit; OUnit; ONat 1; OThrew BadAlloc; OUnit; OThrew ElementThrow; ONat 2; OVal (6 : @V C)]
  | _ => False
  end.
Proof. vm_compute. repeat split; try lia. Qed.

Example C15_case :
  let os : list (@vop good) := [VNew 0] ++ pushes 0 [1; 2; 3] ++ [VNewMove 1 0; VPushBack 0 (EMove 1 2)] in
  @check good _ (λ w m, (size (heap w), (λ c, length (filter is_Some c)) <$> (snd <$> map_to_list (heap w)))) os = Some (2, [3; 1])
  ∧ @check good _ (λ w m, (size m, size (heap w))) (os ++ [VDestroy 0; VDestroy 1]) = Some (0, 0).
Proof. by vm_compute. Qed.

(** blocks with an even number belong to module 0, the others to module 1: after a swap, a move
    and a reallocation in the other module each vector has the function of its memory *)
Example C72_case :
  let look := @check good _ (λ w m, (λ x, (λ v : vec, (v_dealloc v, v_ptr v)) <$> objs w !! x) <$> [0; 1; 2]) in
  let two : list (@vop good) := [VNew 0] ++ pushes 0 [1; 2] ++ [VNew 1] ++ pushes 1 [3] in
  look two = Some [Some (Some 0, Some 0); Some (Some 1, Some 1); None] ∧
  look (two ++ [VSwap 0 1]) = Some [Some (Some 1, Some 1); Some (Some 0, Some 0); None] ∧
  look (two ++ [VSwap 0 1; VNewMove 2 0; VMoveAssign 0 1]) = Some [Some (Some 0, Some 0); Some (None, None); Some (Some 1, Some 1)] ∧
  look (two ++ [VReserve 0 20; VReserve 0 30; VNewCopy 2 0]) = Some [Some (Some 1, Some 3); Some (Some 1, Some 1); Some (Some 0, Some 4)] ∧
  @check good _ (λ w m, size (heap w)) (two ++ [VSwap 0 1; VNewMove 2 0; VDestroy 0; VDestroy 1; VDestroy 2]) = Some 0.
Proof. by vm_compute. Qed.

Example C16_case : ∃ w m, @reachable (cfg never_fails (λ k, k =? 5)) w m ∧
  is [1; 2; 3] (m !! 0) &&
  match vexec (VInsertRange 0 1 (RElems 0 0 3)) w with
  | Exn ElementThrow w' => got (vec_index 0 1 w') 2 && got (vec_size 0 w') 3 && (nctor w' =? 6)
  | _ => false
  end = true.
Proof. apply (check_reachable _ _ _ ([VNew 0] ++ pushes 0 [1; 2; 3])). by vm_compute. Qed.

(** both with reallocation (10 elements in 10 slots) and without *)
Example C17_case :
  let after os x l := @check good _ (λ w m, match vexec os w with
     | Ok _ w' => forallb (λ p : nat * nat, got (vec_index x p.1 w') p.2) (zip (seq 0 (length l)) l) && got (vec_size x w') (length l)
     | _ => false end) in
  let three := [VNew 0] ++ pushes 0 [1; 2; 3] in
  let full := [VNew 0] ++ pushes 0 (seq 1 10) in
  after (VPushBack 0 (ECopy (CElem 0 1))) 0 [1; 2; 3; 2] three = Some true ∧
  after (VPushBack 0 (ECopy (CElem 0 1))) 0 (seq 1 10 ++ [2]) full = Some true ∧
  after (VPushBack 0 (EMove 0 0)) 0 ([0] ++ seq 2 9 ++ [1]) full = Some true ∧
  after (VInsertFill 0 1 2 (CElem 0 2)) 0 ([1; 3; 3] ++ seq 2 9) full = Some true ∧
  after (VInsertRange 0 1 (RElems 0 0 3)) 0 [1; 1; 2; 3; 2; 3] three = Some true ∧
  after (VInsertRange 0 1 (RElems 0 0 3)) 0 ([1; 1; 2; 3] ++ seq 2 9) full = Some true ∧
  after (VAssignRange 0 (RElems 0 1 2)) 0 [2; 3] three = Some true ∧
  after (VAssignRange 0 (RElems 0 1 2)) 0 [2; 3] full = Some true ∧
  after (VAssignFill 0 4 (CElem 0 2)) 0 [3; 3; 3; 3] three = Some true ∧
  after (VResizeFill 0 5 (CElem 0 2)) 0 [1; 2; 3; 3; 3] three = Some true.
Proof. by vm_compute. Qed.

Example C18_case :
  let caps := @check good _ (λ w m, (λ v : vec, (v_siz v, v_cap v, bool_decide (v_ptr v = None))) <$> objs w !! 0) in
  caps [VNew 0] = Some (Some (0, 0, true)) ∧
  caps ([VNew 0] ++ pushes 0 [5]) = Some (Some (1, 10, false)) ∧
  caps ([VNew 0] ++ pushes 0 (seq 0 11)) = Some (Some (11, 20, false)) ∧
  caps [VNew 0; VReserve 0 127] = Some (Some (0, 127, false)).
Proof. by vm_compute. Qed.

(** ten elements stay in the first buffer, the eleventh moves *)
Example C19_case :
  let look := @check good _ (λ w m, ((λ v : vec, (v_ptr v, v_cap v)) <$> objs w !! 0, nalloc w)) in
  look ([VNew 0] ++ pushes 0 (seq 0 3)) = Some (Some (Some 0, 10), 1) ∧
  look ([VNew 0] ++ pushes 0 (seq 0 3) ++ [VInsertFill 0 1 7 (CVal (5 : @V good)); VErase 0 2 4; VPopBack 0; VClear 0])
    = Some (Some (Some 0, 10), 1) ∧
  look ([VNew 0] ++ pushes 0 (seq 0 11)) = Some (Some (Some 1, 20), 2).
Proof. by vm_compute. Qed.

Example C20_case :
  let look := @check good _ (λ w m, ((λ v : vec, (v_ptr v, v_cap v)) <$> objs w !! 0, nalloc w)) in
  look ([VNew 0] ++ pushes 0 [4] ++ [VReserve 0 25]) = Some (Some (Some 1, 25), 2) ∧
  look ([VNew 0] ++ pushes 0 [4] ++ [VReserve 0 25] ++ pushes 0 (seq 0 24)) = Some (Some (Some 1, 25), 2) ∧
  @respects good ([VNew 0] ++ pushes 0 [4] ++ [VReserve 0 25] ++ pushes 0 (seq 0 24)) init_world ∅.
Proof. by vm_compute. Qed.

(** v.reserve(100); v.resize(5) leaves capacity() == 10 *)
Example C21_case : ∃ w m, @reachable good w m ∧
  match objs w !! 0, vec_resize 0 5 w with
  | Some v, Ok _ w' => (v_cap v =? 100) &&
      match objs w' !! 0 with Some v' => (v_cap v' =? 10) && bool_decide (v_ptr v' ≠ v_ptr v) | None => false end
  | _, _ => false
  end = true.
Proof. apply (check_reachable _ _ _ ([VNew 0] ++ pushes 0 [1; 2; 3] ++ [VReserve 0 100])). by vm_compute. Qed.

Example C22_case :
  @check good _ (λ w m, nreloc w) ([VNew 0] ++ pushes 0 (seq 0 60)) = Some 70 ∧
  @respects good ([VNew 0] ++ pushes 0 (seq 0 60)) init_world ∅.
Proof. by vm_compute. Qed.

Example C23_case : ∃ w m, @reachable good w m ∧
  is [4; 5; 6] (m !! 0) && got (vec_at 0 2 w) 6 && got (vec_front 0 w) 4 && got (vec_back 0 w) 6 &&
  match vec_at 0 3 w with Exn OutOfRange _ => true | _ => false end = true.
Proof. apply (check_reachable _ _ _ ([VNew 0] ++ pushes 0 [4; 5; 6])). by vm_compute. Qed.

Example C24_case :
  let os := [VNew 0] ++ pushes 0 [4; 5; 6] ++ [VNewCopy 1 0] ++ pushes 1 [9] ++ [VSet 1 0 (8 : @V good); VClear 0; VNewMove 2 1] in
  @check good _ (λ w m, is [8; 5; 6; 9] (m !! 2) && is [] (m !! 1) && is [] (m !! 0)) os = Some true ∧
  @check good _ (λ w m, (v_ptr <$> objs w !! 1, v_ptr <$> objs w !! 2)) os = Some (Some None, Some (Some 1)).
Proof. by vm_compute. Qed.

(** v.insert(v.begin(), SIZE_MAX, 3) on a vector of one element *)
Example C26_case : ∃ w m, @reachable good w m ∧
  is [4] (m !! 0) &&
  match vec_resize 0 128 w with Exn LengthError _ => true | _ => false end &&
  match vec_insert_fill 0 1 127 (CVal (3 : @V good)) w with Exn LengthError _ => true | _ => false end &&
  match vec_insert_fill 0 0 255 (CVal (3 : @V good)) w with Stuck OutOfBounds => true | _ => false end = true.
Proof. apply (check_reachable _ _ _ ([VNew 0] ++ pushes 0 [4])). by vm_compute. Qed.
(** max_size() is 127, yet a full vector of 70 refuses a 71st element *)
Example C26_early_case : ∃ w m, @reachable good w m ∧
  match objs w !! 0, vec_insert_fill 0 0 1 (CVal (3 : @V good)) w with
  | Some v, Exn LengthError _ => (v_siz v =? 70) && (v_cap v =? 70) | _, _ => false end = true.
Proof. apply (check_reachable _ _ _ [VNewCount 0 70]). by vm_compute. Qed.

Example C27_case :
  let C := cfg (λ k, k =? 2) never_fails in
  let os : list (@vop C) := [VNew 0; VPushBack 0 (ECopy (CVal (4 : @V C))); VReserve 0 50] in
  @check C _ (λ w m, match vec_shrink_to_fit 0 w with Terminated => true | _ => false end) os = Some true ∧
  @check good _ (λ w m, match vec_shrink_to_fit 0 w with Ok _ w' => v_cap <$> objs w' !! 0 | _ => None end)
    ([VNew 0] ++ pushes 0 [4] ++ [VReserve 0 50]) = Some (Some 10).
Proof. by vm_compute. Qed.

(** elements for which x = std::move(x) leaves x empty (0), as for std::vector-like types *)
Example C28_case : ∃ w m, @reachable good w m ∧
  is [4; 5; 6] (m !! 0) &&
  match vec_erase 0 1 1 w with
  | Ok _ w' => got (vec_index 0 0 w') 4 && got (vec_index 0 1 w') 0 && got (vec_index 0 2 w') 0
  | _ => false
  end &&
  match vec_erase 0 0 2 w with Ok _ w' => got (vec_index 0 0 w') 6 && got (vec_size 0 w') 1 | _ => false end = true.
Proof. apply (check_reachable _ _ _ ([VNew 0] ++ pushes 0 [4; 5; 6])). by vm_compute. Qed.

Print Assumptions C14_vector_history.
Print Assumptions C14_vector_exact.
Print Assumptions C14_reachable_shows.
Print Assumptions C15_vector_never_faults.
Print Assumptions C15_vector_live_elements.
Print Assumptions C15_vector_no_leak.
Print Assumptions C16_vector_strong_guarantee.
Print Assumptions C17_push_back_own_element.
Print Assumptions C17_push_back_own_moved.
Print Assumptions C17_insert_own_element.
Print Assumptions C17_insert_own_range.
Print Assumptions C17_assign_own_range.
Print Assumptions C17_assign_own_element.
Print Assumptions C17_resize_own_element.
Print Assumptions C18_vector_capacity_bounds.
Print Assumptions C19_vector_within_capacity.
Print Assumptions C20_vector_reserve.
Print Assumptions C21_resize_behaviour.
Print Assumptions C21_resize_loses_capacity_refuted.
Print Assumptions C22_push_back_amortised.
Print Assumptions C23_vector_at.
Print Assumptions C23_vector_access.
Print Assumptions C24_copy_equals_source.
Print Assumptions C24_independence.
Print Assumptions C24_move_transfers.
Print Assumptions C24_self_operations.
(** elements of three bytes *)
Example C79_case :
  let c : VecCfg := {| V := nat; moved := λ _, 0; selfmove := λ _, 0; dflt := 7; wbits := 8; szT := 3;
     alloc_fails := never_fails; ctor_fails := never_fails; running := λ b, b mod 2 |} in
  @max_cap c = 42 ∧ @max_cap good = 127 ∧ (min_cap <? @max_cap c) = true.
Proof. by vm_compute. Qed.
Print Assumptions C79_vector_max_size.
Print Assumptions C79_vector_bounded.
Print Assumptions C26_oversized_rejected_partial.
Print Assumptions C26_oversized_construction_rejected.
Print Assumptions C26_count_overflow_refuted.
Print Assumptions C26_growth_refused_early.
Print Assumptions C27_shrink_to_fit_partial.
Print Assumptions C27_shrink_to_fit_terminates_refuted.
Print Assumptions C28_erase_range_partial.
Print Assumptions C28_erase_empty_range_behaviour.
Print Assumptions C28_erase_empty_range_refuted.
Print Assumptions C72_vector_dealloc.
Print Assumptions C72_vector_released_by_owner.
Print Assumptions C72_vector_other_module_faults.
