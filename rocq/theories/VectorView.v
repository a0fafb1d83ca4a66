(** Lemmas for C111. *)
From stdpp Require Import prelude gmap.
From Coq Require Import ZArith Lia.
From Verif Require Import Cpp VectorModel VectorSpec VectorMem VectorProofs VectorOps VectorOps2 VectorOps3
  VectorHistory VectorExtra VectorProps VectorStableSpec VectorStable VectorStableProps VectorViewModel VectorViewSpec.
Local Open Scope nat_scope.

Section view.
Context `{C : VecCfg} (Hcfg : cfg_ok).
Notation state := (gmap nat (list V)).
Notation sections := (gmap nat (nat * nat * nat)).

(** the two pointers are those of the section *)
Definition sec_ok (w : world) (m : state) (v : view) (s : nat * nat * nat) : Prop :=
  let '(x, lo, len) := s in
  v.2 = advance v.1 len ∧
  (0 < len → ∃ u l, objs w !! x = Some u ∧ m !! x = Some l ∧ v.1 = (v_ptr u, lo) ∧ lo + len ≤ length l).
Definition secs_ok (s : pworld) (m : state) (g : sections) : Prop :=
  ∀ k t, g !! k = Some t → ∃ v, views s !! k = Some v ∧ sec_ok (vectors s) m v t.
Definition pinv (s : pworld) (m : state) (g : sections) : Prop := wf (vectors s) m ∧ secs_ok s m g.

Lemma pinv_get s m g k x lo len : pinv s m g → g !! k = Some (x, lo, len) →
  ∃ p, views s !! k = Some (p, advance p len) ∧
    (0 < len → ∃ u l, objs (vectors s) !! x = Some u ∧ m !! x = Some l ∧ p = (v_ptr u, lo) ∧ lo + len ≤ length l).
Proof.
  intros [_ H] Hk. destruct (H _ _ Hk) as ([p q] & Hv & Hq & Hu). cbn [fst snd] in *. subst q. eauto.
Qed.
Lemma pinv_put s m g k v t : pinv s m g → sec_ok (vectors s) m v t →
  pinv (PWorld (vectors s) (<[k:=v]> (views s))) m (<[k:=t]> g).
Proof.
  intros [Hw H] Ht. split; [done|]. intros k' t' Hk. cbn [vectors views].
  destruct (decide (k = k')) as [<-|Hne].
  - rewrite lookup_insert in Hk. injection Hk as <-. exists v. by rewrite lookup_insert.
  - rewrite lookup_insert_ne in Hk by done. rewrite lookup_insert_ne by done. by apply H.
Qed.
Lemma get_view_eq k s v : views s !! k = Some v → get_view k s = Ok v s.
Proof. intros H. unfold get_view. by rewrite H. Qed.
Lemma view_size_eq k s p len : views s !! k = Some (p, advance p len) → view_size k s = Ok len s.
Proof.
  intros H. unfold view_size. erewrite bind_ok by by apply get_view_eq. unfold ret. cbn [fst snd advance]. f_equal. lia.
Qed.
Lemma pworld_eta (s : pworld) : PWorld (vectors s) (views s) = s.
Proof. by destruct s. Qed.
Lemma on_vectors_ok {A} (p : M world A) s a w : p (vectors s) = Ok a w → on_vectors p s = Ok a (PWorld w (views s)).
Proof. intros H. unfold on_vectors. by rewrite H. Qed.
Lemma on_vectors_same {A} (p : M world A) s a : p (vectors s) = Ok a (vectors s) → on_vectors p s = Ok a s.
Proof. intros H. rewrite (on_vectors_ok _ _ _ _ H). by rewrite pworld_eta. Qed.

Lemma read_up_eq w m x l u len : wf w m → m !! x = Some l → objs w !! x = Some u → ∀ lo, lo + len ≤ length l →
  read_up (v_ptr u, lo) len w = Ok (take len (drop lo l)) w.
Proof.
  intros Hw Hl Hu. induction len as [|len IH]; intros lo Hlo; cbn [read_up]; [done|].
  destruct (lookup_lt_is_Some_2 l lo) as [a Ha]; [lia|].
  erewrite bind_ok by by eapply address_reads. cbn [advance fst snd].
  erewrite bind_ok by (apply (IH (lo + 1)); lia). unfold ret. rewrite (drop_S _ _ _ Ha). cbn [take]. by rewrite Nat.add_1_r.
Qed.

Lemma enlarged_grows o x n : enlarged o x n = false → ¬ grows o x n.
Proof.
  destruct o; cbn [enlarged grows]; try tauto; intros H [-> Hlt];
    rewrite bool_decide_true in H by done; cbn [andb] in H; apply Nat.ltb_ge in H; lia.
Qed.
Lemma capacity_eq w x u : objs w !! x = Some u → capacity w x = v_cap u.
Proof. intros H. unfold capacity, vec_capacity. by erewrite bind_ok by by apply get_vec_eq. Qed.

(** sections follow their vectors through a call *)
Lemma follow_ok o w m r w' m' v t t' : wf w m → sstep o m = Done r m' → vexec o w = Ok r w' →
  sec_ok w m v t → follow_section (capacity w) o m t = Some t' → sec_ok w' m' v t'.
Proof.
  intros Hw Hd He Ht Hf. destruct t as [[x lo] len]. destruct Ht as [Hq Hu]. unfold follow_section in Hf.
  destruct (m !! x) as [l|] eqn:Hl; [|done]. destruct (enlarged o x (length l)) eqn:Hen; [done|].
  destruct (heir o m (length l) (capacity w x) x lo) as [y|] eqn:Hy; [|done].
  destruct (forallb _ _) eqn:Hall; [|done]. injection Hf as <-. split; [done|]. intros Hlen.
  destruct (Hu Hlen) as (u & l1 & Hx & Hl1 & Hp & Hle). injection Hl1 as <-.
  assert (Hheir : ∀ i, lo ≤ i < lo + len → heir o m (length l) (v_cap u) x i = Some y).
  { intros i Hi. rewrite forallb_forall in Hall. specialize (Hall i). rewrite in_seq in Hall. specialize (Hall Hi).
    apply bool_decide_eq_true in Hall. by rewrite (capacity_eq _ _ _ Hx) in Hall. }
  assert (Hb : sstep o m ≠ Bad) by (rewrite Hd; done).
  pose proof (vrep_siz _ _ _ (wf_rep _ _ _ _ _ Hw Hx Hl)) as Hs.
  assert (Hlo : lo < v_siz u) by lia.
  pose proof (Hheir lo ltac:(lia)) as H0. rewrite <-Hs in H0.
  pose proof (enlarged_grows _ _ _ Hen) as Hg. rewrite <-Hs in Hg.
  destruct (heir_buffer Hcfg _ _ _ _ _ _ _ _ _ Hw Hb Hx Hlo H0 Hg He) as (u' & Hx' & Ep).
  assert (Hlast : lo + len - 1 < length l) by lia.
  assert (Hhl : heir o m (length l) (v_cap u) x (lo + len - 1) = Some y) by (apply Hheir; lia).
  destruct (heir_in _ _ _ _ _ _ _ _ _ Hd Hl Hlast Hhl) as (l' & Hl' & Hlt).
  exists u', l'. rewrite Ep. split_and!; [done..|lia].
Qed.

Definition pstep_ok (p : pop) (s : pworld) (m : state) (g : sections) (r : res pworld pobs) : Prop :=
  match r with
  | Ok r s' => ∃ m' g', pstep (capacity (vectors s)) p m g = PDone r m' g' ∧ pinv s' m' g'
  | Exn e s' => pinv s' m g ∧ (pstep (capacity (vectors s)) p m g = PThrows e ∨
                  ∃ o, p = PCall o ∧ acquires o = true ∧ e ∈ [BadAlloc; LengthError; ElementThrow])
  | Stuck _ => False
  | Terminated => ∃ x k, p = PCall (VShrink x) ∧ alloc_fails k = true
  end.
Lemma pexec_ok p s m g : pinv s m g → pstep (capacity (vectors s)) p m g ≠ PBad → pstep_ok p s m g (pexec p s).
Proof.
  intros Hi Hb. pose proof (proj1 Hi) as Hw. destruct p as [o|k x|k j o n|k j n|k i|k i a|k i|k|k]; cbn [pexec].
  - (* PCall *) cbn [pstep] in Hb. assert (Hs : sstep o m ≠ Bad) by (intros E; by rewrite E in Hb).
    pose proof (vexec_step Hcfg o _ m Hw Hs) as Hok. unfold bind, on_vectors.
    destruct (vexec o (vectors s)) as [r w'|e w'|f|] eqn:He; cbn [step_ok] in Hok.
    + destruct Hok as (m' & Hd & Hw' & _). unfold ret. cbn [pstep_ok pstep]. rewrite Hd. do 2 eexists. split; [done|].
      split; [done|]. intros k t Hk. cbn [views vectors]. rewrite lookup_omap in Hk.
      destruct (g !! k) as [t0|] eqn:Hg; [|done]. cbn [mbind option_bind] in Hk.
      destruct (proj2 Hi _ _ Hg) as (v & Hv & Ht). exists v. split; [done|]. exact (follow_ok _ _ _ _ _ _ _ _ _ Hw Hd He Ht Hk).
    + destruct Hok as (Hw' & Ho & _ & Hwhy). cbn [pstep_ok pstep]. split.
      { split; [done|]. intros k [[x lo] len] Hk. destruct (proj2 Hi _ _ Hk) as (v & Hv & Hq & Hu). exists v.
        split; [done|]. split; [done|]. cbn [vectors]. by rewrite Ho. }
      destruct Hwhy as [->|Hex]; [by left|]. right. apply explained_exn in Hex as [? ?]; [|done]. eauto.
    + done.
    + destruct Hok as (x & -> & Ha). cbn [pstep_ok]. eauto.
  - (* PView *) cbn [pstep] in Hb. destruct (m !! x) as [l|] eqn:Hl; [|done].
    destruct (wf_get _ _ _ _ Hw Hl) as (u & Hu & Hr). pose proof (vrep_siz _ _ _ Hr) as Hs.
    assert (Hd : on_vectors (vec_data x) s = Ok (v_ptr u) s).
    { apply on_vectors_same. unfold vec_data. by erewrite bind_ok by by apply get_vec_eq. }
    assert (Hn : on_vectors (vec_size x) s = Ok (v_siz u) s).
    { apply on_vectors_same. unfold vec_size. by erewrite bind_ok by by apply get_vec_eq. }
    unfold view_of, bind. rewrite Hd, Hn. unfold put_view, ret. cbn [pstep_ok pstep]. rewrite Hl. do 2 eexists.
    split; [done|]. rewrite Hs. apply pinv_put; [done|]. split; [done|]. intros _. exists u, l. done.
  - (* PSub *) cbn [pstep] in Hb. destruct (g !! j) as [[[x lo] len]|] eqn:Hj; [|done].
    destruct (decide (o + n ≤ len)) as [Hle|]; [|done].
    destruct (pinv_get _ _ _ _ _ _ _ Hi Hj) as (p & Hv & Hu). unfold view_sub, bind.
    rewrite (get_view_eq _ _ _ Hv). unfold put_view, ret. cbn [pstep_ok pstep fst snd]. rewrite Hj, decide_True by done.
    do 2 eexists. split; [done|]. apply pinv_put; [done|]. split; [done|]. intros Hn.
    destruct Hu as (u & l & Hx & Hl & -> & Hlen); [lia|]. exists u, l. cbn [advance fst snd]. split_and!; [done..|lia].
  - (* PLast *) cbn [pstep] in Hb. destruct (g !! j) as [[[x lo] len]|] eqn:Hj; [|done].
    destruct (decide (n ≤ len)) as [Hle|]; [|done].
    destruct (pinv_get _ _ _ _ _ _ _ Hi Hj) as (p & Hv & Hu). unfold view_last, bind.
    rewrite (view_size_eq _ _ _ _ Hv), (get_view_eq _ _ _ Hv). unfold put_view, ret. cbn [pstep_ok pstep fst snd].
    rewrite Hj, decide_True by done.
    do 2 eexists. split; [done|]. apply pinv_put; [done|]. split; [done|]. intros Hn.
    destruct Hu as (u & l & Hx & Hl & -> & Hlen); [lia|]. exists u, l. cbn [advance fst snd].
    split_and!; [done..| |lia]. unfold advance; cbn [fst snd]; apply f_equal2; [done|lia].
  - (* PIndex *) cbn [pstep] in Hb. destruct (g !! k) as [[[x lo] len]|] eqn:Hk; [|done].
    destruct (decide (i < len)) as [Hlt|]; [|done].
    destruct (pinv_get _ _ _ _ _ _ _ Hi Hk) as (p & Hv & Hu).
    destruct Hu as (u & l & Hx & Hl & -> & Hlen); [lia|].
    destruct (lookup_lt_is_Some_2 l (lo + i)) as [a Ha]; [lia|].
    unfold view_index, bind. rewrite (get_view_eq _ _ _ Hv). cbn [fst snd advance].
    erewrite on_vectors_same by by eapply address_reads. unfold ret. cbn [pstep_ok pstep].
    rewrite Hk, decide_True by done. rewrite Hl. cbn [mbind option_bind]. rewrite Ha. eauto.
  - (* PSet *) cbn [pstep] in Hb. destruct (g !! k) as [[[x lo] len]|] eqn:Hk; [|done].
    destruct (decide (i < len)) as [Hlt|]; [|done].
    destruct (pinv_get _ _ _ _ _ _ _ Hi Hk) as (p & Hv & Hu).
    destruct Hu as (u & l & Hx & Hl & -> & Hlen); [lia|].
    assert (Hll : lo + i < length l) by lia.
    pose proof (set_run _ _ _ _ _ a (λ _ _, False) Hw Hl Hll) as Hset. unfold run_to, vec_set in Hset.
    erewrite bind_ok in Hset by by apply get_vec_eq.
    destruct (store (v_ptr u, lo + i) a (vectors s)) as [[] w'|e w'|f|] eqn:He; try done.
    destruct Hset as (Hw' & _ & Ho).
    unfold view_set, bind. rewrite (get_view_eq _ _ _ Hv). unfold advance; cbn [fst snd].
    rewrite (on_vectors_ok _ _ _ _ He). unfold ret. cbn [pstep_ok pstep].
    rewrite Hk, decide_True by done. rewrite Hl. do 2 eexists. split; [done|].
    split; [done|]. intros k' [[x' lo'] len'] Hk'. destruct (proj2 Hi _ _ Hk') as (v & Hv' & Hq & Hu'). exists v.
    split; [done|]. split; [done|]. cbn [vectors]. rewrite Ho. intros Hpos.
    destruct (Hu' Hpos) as (u' & l' & Hx' & Hl' & Hp' & Hle'). destruct (decide (x = x')) as [<-|Hne].
    + rewrite Hl in Hl'. injection Hl' as <-. exists u', (<[lo + i:=a]> l). rewrite lookup_insert, insert_length. done.
    + exists u', l'. by rewrite lookup_insert_ne by done.
  - (* PAt *) cbn [pstep] in Hb. destruct (g !! k) as [[[x lo] len]|] eqn:Hk; [|done].
    destruct (pinv_get _ _ _ _ _ _ _ Hi Hk) as (p & Hv & Hu).
    unfold view_at, bind. rewrite (view_size_eq _ _ _ _ Hv). destruct (decide (i < len)) as [Hlt|Hge].
    + rewrite (proj2 (Nat.leb_gt _ _)) by done.
      destruct Hu as (u & l & Hx & Hl & -> & Hlen); [lia|].
      destruct (lookup_lt_is_Some_2 l (lo + i)) as [a Ha]; [lia|].
      unfold view_index, bind. rewrite (get_view_eq _ _ _ Hv). cbn [fst snd advance].
      erewrite on_vectors_same by by eapply address_reads. unfold ret. cbn [pstep_ok pstep].
      rewrite Hk, decide_True by done. rewrite Hl. cbn [mbind option_bind]. rewrite Ha. eauto.
    + rewrite (proj2 (Nat.leb_le _ _)) by lia. unfold throw. cbn [pstep_ok pstep]. rewrite Hk, decide_False by done. eauto.
  - (* PSize *) cbn [pstep] in Hb. destruct (g !! k) as [[[x lo] len]|] eqn:Hk; [|done].
    destruct (pinv_get _ _ _ _ _ _ _ Hi Hk) as (p & Hv & Hu). unfold bind. rewrite (view_size_eq _ _ _ _ Hv).
    unfold ret. cbn [pstep_ok pstep]. rewrite Hk. eauto.
  - (* PAll *) cbn [pstep] in Hb. destruct (g !! k) as [[[x lo] len]|] eqn:Hk; [|done].
    destruct (pinv_get _ _ _ _ _ _ _ Hi Hk) as (p & Hv & Hu). destruct (m !! x) as [l0|] eqn:Hl0; [|done].
    assert (Hr : on_vectors (read_up p len) s = Ok (take len (drop lo l0)) s).
    { apply on_vectors_same. destruct len as [|len]; [done|]. destruct Hu as (u & l & Hx & Hl & -> & Hlen); [lia|].
      injection Hl as <-. by eapply read_up_eq. }
    unfold view_all, bind. rewrite (view_size_eq _ _ _ _ Hv), (get_view_eq _ _ _ Hv). cbn [fst snd]. rewrite Hr.
    unfold ret. cbn [pstep_ok pstep]. rewrite Hk, Hl0. eauto.
Qed.

Lemma pinv_init : pinv p_init ∅ ∅.
Proof. split; [apply wf_init|]. intros k t Hk. by rewrite lookup_empty in Hk. Qed.
Lemma prun_ok ps : ∀ s m g, pinv s m g → prespects ps s m g →
  match prun ps s with
  | PFinished rs s' => ∃ m', preplay ps rs m g m' ∧ shows (vectors s') m'
  | PFaulted _ => False
  | PAborted => ∃ x k, PCall (VShrink x) ∈ ps ∧ alloc_fails k = true
  end.
Proof.
  induction ps as [|p ps IH]; intros s m g Hi Hr; cbn [prun prespects] in *.
  { exists m. split; [constructor|]. apply wf_shows, Hi. }
  assert (Hb : pstep (capacity (vectors s)) p m g ≠ PBad) by (intros E; by rewrite E in Hr).
  pose proof (pexec_ok p s m g Hi Hb) as Hs. unfold pstep_ok in Hs.
  destruct (pexec p s) as [r s'|e s'|f|] eqn:Hx.
  - destruct Hs as (m' & g' & Hd & Hi'). rewrite Hd in Hr. specialize (IH s' m' g' Hi' Hr).
    destruct (prun ps s') as [rs s''|f|]; [|done|].
    + destruct IH as (m'' & Hp & Hsh). exists m''. split; [|done]. by eapply pr_done.
    + destruct IH as (x & k & ? & ?). exists x, k. split; [by right|done].
  - destruct Hs as (Hi' & Hwhy).
    assert (Hr' : prespects ps s' m g) by (by destruct (pstep _ p m g)).
    specialize (IH s' m g Hi' Hr'). destruct (prun ps s') as [rs s''|f|]; [|done|].
    + destruct IH as (m'' & Hp & Hsh). exists m''. split; [|done].
      destruct Hwhy as [Ht|(o & -> & ? & ?)]; [by eapply pr_throws|by apply pr_failed].
    + destruct IH as (x & k & ? & ?). exists x, k. split; [by right|done].
  - done.
  - destruct Hs as (x & k & -> & Hal). exists x, k. split; [by left|done].
Qed.
End view.
