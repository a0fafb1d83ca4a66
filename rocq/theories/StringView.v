(** Lemmas for C113. *)
From stdpp Require Import prelude gmap.
From Coq Require Import ZArith Lia.
From Coq Require Import Init.Byte.
From Verif Require Import Cpp StringModel StringSpec StringMem StringRep StringOps StringOps2 StringOps3 StringHistory
  StringExtra StringLimits StringProps StringCostProps StringStableSpec StringStable StringStableProps StringViewModel StringViewSpec.
Local Open Scope nat_scope.

Section view.
Context `{C : StrCfg} (Hcfg : cfg_ok).
Notation state := (gmap nat (list char)).
Notation sections := (gmap nat (nat * nat * nat)).

(** the two pointers are those of the section *)
Definition sec_ok (w : world) (m : state) (v : view) (s : nat * nat * nat) : Prop :=
  let '(x, lo, len) := s in
  ∃ l, m !! x = Some l ∧ lo + len ≤ length l ∧
  ((v = (None, None) ∧ len = 0) ∨
   ∃ p, str_data x w = Ok p w ∧ v = (Some (padd p lo), Some (padd (padd p lo) len))).
Definition secs_ok (s : tworld) (m : state) (g : sections) : Prop :=
  ∀ k t, g !! k = Some t → ∃ v, views s !! k = Some v ∧ sec_ok (strings s) m v t.
Definition tinv (s : tworld) (m : state) (g : sections) : Prop := wf (strings s) m ∧ secs_ok s m g.

Lemma tinv_get s m g k x lo len : tinv s m g → g !! k = Some (x, lo, len) →
  ∃ v l, views s !! k = Some v ∧ m !! x = Some l ∧ lo + len ≤ length l ∧
  ((v = (None, None) ∧ len = 0) ∨
   ∃ p, str_data x (strings s) = Ok p (strings s) ∧ v = (Some (padd p lo), Some (padd (padd p lo) len))).
Proof. intros [_ H] Hk. destruct (H _ _ Hk) as (v & Hv & l & Hl & Hle & Hc). eauto 10. Qed.
Lemma tinv_put s m g k v t : tinv s m g → sec_ok (strings s) m v t →
  tinv (TWorld (strings s) (<[k:=v]> (views s))) m (<[k:=t]> g).
Proof.
  intros [Hw H] Ht. split; [done|]. intros k' t' Hk. cbn [strings views].
  destruct (decide (k = k')) as [<-|Hne].
  - rewrite lookup_insert in Hk. injection Hk as <-. exists v. by rewrite lookup_insert.
  - rewrite lookup_insert_ne in Hk by done. rewrite lookup_insert_ne by done. by apply H.
Qed.
Lemma get_view_eq k s v : views s !! k = Some v → get_view k s = Ok v s.
Proof. intros H. unfold get_view. by rewrite H. Qed.
Lemma view_size_eq k s p len : views s !! k = Some (Some p, Some (padd p len)) → view_size k s = Ok len s.
Proof.
  intros H. unfold view_size. erewrite bind_ok by by apply get_view_eq. unfold padd. cbn [fst snd].
  rewrite decide_True by done. unfold ret. f_equal. lia.
Qed.
Lemma view_size_null k s : views s !! k = Some (None, None) → view_size k s = Ok 0 s.
Proof. intros H. unfold view_size. by erewrite bind_ok by by apply get_view_eq. Qed.
Lemma tworld_eta (s : tworld) : TWorld (strings s) (views s) = s.
Proof. by destruct s. Qed.
Lemma on_strings_same {A} (p : M world A) s a : p (strings s) = Ok a (strings s) → on_strings p s = Ok a s.
Proof. intros H. unfold on_strings. rewrite H. by rewrite tworld_eta. Qed.
Lemma padd_padd p i j : padd (padd p i) j = padd p (i + j).
Proof. unfold padd. cbn [fst snd]. by rewrite Nat.add_assoc. Qed.

Lemma section_reads w m x p l i a : wf w m → str_data x w = Ok p w → m !! x = Some l → l !! i = Some a → rd (padd p i) w = Ok a w.
Proof. intros Hw Hp Hl Ha. eapply data_reads; [done..|]. by apply lookup_app_l_Some. Qed.
Lemma read_up_eq w m x l p len : wf w m → m !! x = Some l → str_data x w = Ok p w → ∀ lo, lo + len ≤ length l →
  read_up (padd p lo) len w = Ok (take len (drop lo l)) w.
Proof.
  intros Hw Hl Hp. induction len as [|len IH]; intros lo Hlo; cbn [read_up]; [done|].
  destruct (lookup_lt_is_Some_2 l lo) as [a Ha]; [lia|].
  erewrite bind_ok by by eapply section_reads. rewrite padd_padd.
  erewrite bind_ok by (apply (IH (lo + 1)); lia). unfold ret. rewrite (drop_S _ _ _ Ha). cbn [take]. by rewrite Nat.add_1_r.
Qed.

Lemma size_eq k s v x lo len : views s !! k = Some v →
  ((v = (None, None) ∧ len = 0) ∨ ∃ p, str_data x (strings s) = Ok p (strings s) ∧ v = (Some (padd p lo), Some (padd (padd p lo) len))) →
  view_size k s = Ok len s.
Proof. intros Hv [[-> ->]|(p & _ & ->)]; [by apply view_size_null|by eapply view_size_eq]. Qed.
Lemma view_index_eq s m k x v i l lo len : wf (strings s) m → views s !! k = Some v → m !! x = Some l → lo + len ≤ length l → i < len →
  ((v = (None, None) ∧ len = 0) ∨ ∃ p, str_data x (strings s) = Ok p (strings s) ∧ v = (Some (padd p lo), Some (padd (padd p lo) len))) →
  ∃ a, l !! (lo + i) = Some a ∧ view_index k i s = Ok a s.
Proof.
  intros Hw Hv Hl Hlen Hi [[-> ->]|(p & Hp & ->)]; [lia|].
  destruct (lookup_lt_is_Some_2 l (lo + i)) as [a Ha]; [lia|]. exists a. split; [done|].
  unfold view_index, bind. rewrite (get_view_eq _ _ _ Hv). unfold cadd, ret. cbn [fst]. rewrite padd_padd.
  exact (on_strings_same _ _ _ (section_reads _ _ _ _ _ _ _ Hw Hp Hl Ha)).
Qed.

(** *** traits_type::length *)
Lemma c_len_cons c l : c_len (c :: l) = if Byte.eqb c NUL then 0 else S (c_len l).
Proof.
  unfold c_len. cbn [list_find]. destruct (Byte.eqb c NUL) eqn:E.
  - by rewrite decide_True.
  - rewrite decide_False by done. by destruct (list_find _ l) as [[i d]|].
Qed.
Lemma c_len_le l : c_len l ≤ length l.
Proof.
  induction l as [|c l IH]; [done|]. rewrite c_len_cons. cbn [length]. destruct (Byte.eqb c NUL); lia.
Qed.
Lemma c_length_eq l : ∀ b, (∀ i a, (l ++ [NUL]) !! i = Some a → b !! i = Some (Some a)) → c_length b = inr (c_len l).
Proof.
  induction l as [|c l IH]; intros b Hb.
  - specialize (Hb 0 NUL eq_refl). destruct b as [|s b]; [done|]. injection Hb as ->. done.
  - pose proof (Hb 0 c eq_refl) as H0. destruct b as [|s b]; [done|]. injection H0 as ->. cbn [c_length].
    rewrite c_len_cons. destruct (Byte.eqb c NUL); [done|]. rewrite IH; [done|]. intros i a Hi. exact (Hb (S i) a Hi).
Qed.
Lemma length_at_eq w m x p l : wf w m → str_data x w = Ok p w → m !! x = Some l → length_at p w = Ok (c_len l) w.
Proof.
  intros Hw Hp Hl. assert (Hr : ∀ i a, (l ++ [NUL]) !! i = Some a → rd (padd p i) w = Ok a w).
  { intros i a Hi. by eapply data_reads. }
  unfold length_at. unfold rd, padd in Hr. cbn [fst snd] in Hr. destruct (mem w !! p.1) as [b|].
  - rewrite (c_length_eq l); [done|]. intros i a Hi. rewrite lookup_drop. specialize (Hr i a Hi).
    destruct (b !! (p.2 + i)) as [[a'|]|]; [|done..]. by injection Hr as ->.
  - assert (∃ a, (l ++ [NUL]) !! 0 = Some a) as [a Ha] by (destruct l; eauto). by specialize (Hr 0 a Ha).
Qed.

Lemma excepted_crowded o m c x : excepted o m c x = false → ¬ crowded o m c x.
Proof.
  destruct o; cbn [excepted crowded]; try tauto; intros H.
  - intros (Hne & -> & Hlt). rewrite (proj2 (Nat.eqb_neq _ _) Hne), Nat.eqb_refl in H. cbn [negb andb] in H. apply Nat.ltb_ge in H. lia.
  - intros (-> & Hlt). rewrite Nat.eqb_refl in H. cbn [andb] in H. apply Nat.ltb_ge in H. lia.
  - intros ->. by rewrite Nat.eqb_refl in H.
  - intros (-> & Hlt). rewrite Nat.eqb_refl in H. cbn [andb] in H. apply Nat.ltb_ge in H. lia.
Qed.

(** sections follow their strings through a call *)
Lemma follow_ok o w m r w' m' v t t' : wf w m → sstep (inline w) o m = Done r m' → sexec o w = Ok r w' →
  sec_ok w m v t → follow_section (inline w) (capacity w) o m m' t = Some t' → sec_ok w' m' v t'.
Proof.
  intros Hw Hd He Ht Hf. destruct t as [[x lo] len]. destruct Ht as (l & Hl & Hle & Hc). unfold follow_section in Hf.
  destruct (excepted o m (capacity w x) x) eqn:Hex; [done|].
  destruct (stands (inline w) o m m' (capacity w x) x) as [y|] eqn:Hy; [|done].
  destruct (m' !! y) as [l'|] eqn:Hl'; [|done]. destruct (decide (lo + len ≤ length l')) as [Hle'|]; [|done]. injection Hf as <-.
  exists l'. split_and!; [done|done|]. destruct Hc as [Hc|(p & Hp & Hv)]; [by left|right]. exists p. split; [|done].
  destruct Hw as (ρ & H & Hrel). destruct (data_rep _ _ _ _ H Hp) as (s & Hs & ->).
  assert (Hcap : capacity w x = cap s) by (unfold capacity; by rewrite (str_capacity_eq _ _ _ _ H Hs)).
  rewrite Hcap in Hy, Hex. exact (stands_data Hcfg _ _ _ _ _ _ _ _ _ _ H Hrel Hd Hs Hy (excepted_crowded _ _ _ _ Hex) He).
Qed.
(** and stay where they are if it throws *)
Lemma failed_ok o w m e w' v t : wf w m → sstep (inline w) o m ≠ Bad → sexec o w = Exn e w' → sec_ok w m v t → sec_ok w' m v t.
Proof.
  intros Hw Hb He Ht. destruct t as [[x lo] len]. destruct Ht as (l & Hl & Hle & Hc).
  exists l. split_and!; [done|done|]. destruct Hc as [Hc|(p & Hp & Hv)]; [by left|right]. exists p. split; [|done].
  destruct Hw as (ρ & H & Hrel). pose proof (exec_run Hcfg o w m ρ H Hrel Hb) as Hx.
  unfold run_to in Hx. rewrite He in Hx. destruct Hx as (H' & _).
  destruct (data_rep _ _ _ _ H Hp) as (s & Hs & ->). by apply (str_data_eq _ _ _ _ H' Hs).
Qed.

Definition tstep_ok (p : top) (s : tworld) (m : state) (g : sections) (r : res tworld tobs) : Prop :=
  match r with
  | Ok r s' => ∃ m' g', tstep (inline (strings s)) (capacity (strings s)) p m g = TDone r m' g' ∧ tinv s' m' g'
  | Exn e s' => tinv s' m g ∧ (tstep (inline (strings s)) (capacity (strings s)) p m g = TThrows e ∨
                  ∃ o, p = TCall o ∧ acquires o = true ∧ e ∈ [BadAlloc; LengthError])
  | _ => False
  end.
Lemma texec_ok p s m g : tinv s m g → tstep (inline (strings s)) (capacity (strings s)) p m g ≠ TBad → tstep_ok p s m g (texec p s).
Proof.
  intros Hi Hb. pose proof (proj1 Hi) as Hw. destruct p as [o|k x|k x|k j o n|k n|k n|k i|k i|k|k]; cbn [texec].
  - (* TCall *) cbn [tstep] in Hb. assert (Hs : sstep (inline (strings s)) o m ≠ Bad) by (intros E; by rewrite E in Hb).
    pose proof (call_ok Hcfg o _ m Hw Hs) as Hok. unfold bind, on_strings.
    destruct (sexec o (strings s)) as [r w'|e w'|f|] eqn:He; [| |done|done].
    + destruct Hok as (m' & Hd & Hw' & _). unfold ret. cbn [tstep_ok tstep]. rewrite Hd. do 2 eexists. split; [done|].
      split; [done|]. intros k t Hk. cbn [views strings]. rewrite lookup_omap in Hk.
      destruct (g !! k) as [t0|] eqn:Hg; [|done]. cbn [mbind option_bind] in Hk.
      destruct (proj2 Hi _ _ Hg) as (v & Hv & Ht). exists v. split; [done|]. exact (follow_ok _ _ _ _ _ _ _ _ _ Hw Hd He Ht Hk).
    + destruct Hok as (Hw' & _ & _ & _ & Hwhy). cbn [tstep_ok tstep]. split.
      { split; [done|]. intros k t Hk. destruct (proj2 Hi _ _ Hk) as (v & Hv & Ht). exists v.
        split; [done|]. exact (failed_ok _ _ _ _ _ _ _ Hw Hs He Ht). }
      destruct Hwhy as [->|Hex]; [by left|]. right. destruct (explained_exn Hcfg _ _ _ _ _ Hex). eauto.
  - (* TView *) cbn [tstep] in Hb. destruct (m !! x) as [l|] eqn:Hl; [|done].
    destruct (wf_get _ _ _ _ Hw Hl) as (ρ & r & H & Hrel & Hr & Hh).
    pose proof (str_data_eq _ _ _ _ H Hr) as Hd. pose proof (str_size_eq _ _ _ _ H Hr) as Hn. rewrite (proj1 Hh) in Hn.
    unfold view_of, bind. rewrite (on_strings_same _ _ _ Hn). destruct (length l =? 0) eqn:Hz.
    + apply Nat.eqb_eq in Hz. unfold view_at_ptr, cadd, bind, ret, put_view. cbn [Nat.eqb tstep_ok tstep]. rewrite Hl.
      do 2 eexists. split; [done|]. apply tinv_put; [done|]. exists l. split_and!; [done|done|]. by left.
    + rewrite (on_strings_same _ _ _ Hd). unfold view_at_ptr, cadd, bind, ret, put_view. cbn [tstep_ok tstep]. rewrite Hl.
      do 2 eexists. split; [done|]. apply tinv_put; [done|]. exists l. split_and!; [done|done|]. right.
      eexists. split; [done|]. unfold padd. cbn [fst snd]. done.
  - (* TCStr *) cbn [tstep] in Hb. destruct (m !! x) as [l|] eqn:Hl; [|done].
    destruct (wf_get _ _ _ _ Hw Hl) as (ρ & r & H & Hrel & Hr & Hh).
    pose proof (str_data_eq _ _ _ _ H Hr) as Hd. pose proof (length_at_eq _ _ _ _ _ Hw Hd Hl) as Hn.
    unfold view_c_str, bind. rewrite (on_strings_same _ _ _ Hd), (on_strings_same _ _ _ Hn).
    unfold view_at_ptr, cadd, bind, ret, put_view. cbn [tstep_ok tstep]. rewrite Hl.
    do 2 eexists. split; [done|]. apply tinv_put; [done|]. exists l. split_and!; [done|apply c_len_le|]. right.
    eexists. split; [done|]. unfold padd. cbn [fst snd]. done.
  - (* TSubstr *) cbn [tstep] in Hb. destruct (g !! j) as [[[x lo] len]|] eqn:Hj; [|done].
    destruct (decide (o + n ≤ len)) as [Hle|]; [|done].
    destruct (tinv_get _ _ _ _ _ _ _ Hi Hj) as (v & l & Hv & Hl & Hlen & Hc). unfold view_substr, bind.
    rewrite (get_view_eq _ _ _ Hv). destruct Hc as [[-> ->]|(p & Hp & ->)].
    + assert (o = 0) as -> by lia. assert (n = 0) as -> by lia. unfold cadd, view_at_ptr, cadd, bind, ret, put_view.
      cbn [fst Nat.eqb tstep_ok tstep]. rewrite Hj, decide_True by done. do 2 eexists. split; [done|].
      apply tinv_put; [done|]. exists l. split_and!; [done|lia|]. by left.
    + unfold cadd, view_at_ptr, cadd, bind, ret, put_view.
      cbn [fst tstep_ok tstep]. rewrite Hj, decide_True by done. do 2 eexists. split; [done|].
      apply tinv_put; [done|]. exists l. split_and!; [done|lia|]. right. exists p. by rewrite !padd_padd.
  - (* TPrefix *) cbn [tstep] in Hb. destruct (g !! k) as [[[x lo] len]|] eqn:Hj; [|done].
    destruct (decide (n ≤ len)) as [Hle|]; [|done].
    destruct (tinv_get _ _ _ _ _ _ _ Hi Hj) as (v & l & Hv & Hl & Hlen & Hc). unfold view_prefix, bind.
    rewrite (get_view_eq _ _ _ Hv). destruct Hc as [[-> ->]|(p & Hp & ->)].
    + assert (n = 0) as -> by lia. unfold cadd, ret, put_view.
      cbn [fst snd Nat.eqb tstep_ok tstep]. rewrite Hj, decide_True by done. do 2 eexists. split; [done|].
      apply tinv_put; [done|]. exists l. split_and!; [done|lia|]. by left.
    + unfold cadd, ret, put_view. cbn [fst snd tstep_ok tstep]. rewrite Hj, decide_True by done. do 2 eexists. split; [done|].
      apply tinv_put; [done|]. exists l. split_and!; [done|lia|]. right. exists p. split; [done|]. rewrite !padd_padd.
      by replace (lo + n + (len - n)) with (lo + len) by lia.
  - (* TSuffix *) cbn [tstep] in Hb. destruct (g !! k) as [[[x lo] len]|] eqn:Hj; [|done].
    destruct (decide (n ≤ len)) as [Hle|]; [|done].
    destruct (tinv_get _ _ _ _ _ _ _ Hi Hj) as (v & l & Hv & Hl & Hlen & Hc). unfold view_suffix, bind.
    rewrite (get_view_eq _ _ _ Hv). destruct Hc as [[-> ->]|(p & Hp & ->)].
    + assert (n = 0) as -> by lia. unfold csub, ret, put_view.
      cbn [fst snd Nat.eqb tstep_ok tstep]. rewrite Hj, decide_True by done. do 2 eexists. split; [done|].
      apply tinv_put; [done|]. exists l. split_and!; [done|lia|]. by left.
    + unfold csub. cbn [fst snd padd]. rewrite (proj2 (Nat.leb_le n _)) by lia.
      unfold ret, put_view. cbn [tstep_ok tstep]. rewrite Hj, decide_True by done. do 2 eexists. split; [done|].
      apply tinv_put; [done|]. exists l. split_and!; [done|lia|]. right. exists p. split; [done|]. unfold padd. cbn [fst snd].
      by replace (p.2 + lo + len - n) with (p.2 + lo + (len - n)) by lia.
  - (* TIndex *) cbn [tstep] in Hb. destruct (g !! k) as [[[x lo] len]|] eqn:Hk; [|done].
    destruct (decide (i < len)) as [Hlt|]; [|done].
    destruct (tinv_get _ _ _ _ _ _ _ Hi Hk) as (v & l & Hv & Hl & Hlen & Hc). unfold bind.
    destruct (view_index_eq _ _ _ _ _ i _ _ _ Hw Hv Hl Hlen Hlt Hc) as (a & Ha & ->). unfold ret. cbn [tstep_ok tstep].
    rewrite Hk, decide_True by done. rewrite Hl. cbn [mbind option_bind]. rewrite Ha. eauto.
  - (* TAt *) cbn [tstep] in Hb. destruct (g !! k) as [[[x lo] len]|] eqn:Hk; [|done].
    destruct (tinv_get _ _ _ _ _ _ _ Hi Hk) as (v & l & Hv & Hl & Hlen & Hc).
    unfold view_at, bind. rewrite (size_eq _ _ _ _ _ _ Hv Hc). destruct (decide (i < len)) as [Hlt|Hge].
    + rewrite (proj2 (Nat.leb_gt _ _)) by done.
      destruct (view_index_eq _ _ _ _ _ i _ _ _ Hw Hv Hl Hlen Hlt Hc) as (a & Ha & ->). unfold ret. cbn [tstep_ok tstep].
      rewrite Hk, decide_True by done. rewrite Hl. cbn [mbind option_bind]. rewrite Ha. eauto.
    + rewrite (proj2 (Nat.leb_le _ _)) by lia. unfold throw. cbn [tstep_ok tstep]. rewrite Hk, decide_False by done. eauto.
  - (* TSize *) cbn [tstep] in Hb. destruct (g !! k) as [[[x lo] len]|] eqn:Hk; [|done].
    destruct (tinv_get _ _ _ _ _ _ _ Hi Hk) as (v & l & Hv & Hl & Hlen & Hc). unfold bind. rewrite (size_eq _ _ _ _ _ _ Hv Hc).
    unfold ret. cbn [tstep_ok tstep]. rewrite Hk. eauto.
  - (* TAll *) cbn [tstep] in Hb. destruct (g !! k) as [[[x lo] len]|] eqn:Hk; [|done].
    destruct (tinv_get _ _ _ _ _ _ _ Hi Hk) as (v & l & Hv & Hl & Hlen & Hc).
    unfold view_all, bind. rewrite (size_eq _ _ _ _ _ _ Hv Hc), (get_view_eq _ _ _ Hv).
    destruct Hc as [[-> ->]|(p & Hp & ->)]; cbn [fst snd].
    + cbn [Nat.eqb]. unfold ret. cbn [tstep_ok tstep]. rewrite Hk, Hl. eauto.
    + rewrite (on_strings_same _ _ _ (read_up_eq _ _ _ _ _ _ Hw Hl Hp _ Hlen)).
      unfold ret. cbn [tstep_ok tstep]. rewrite Hk, Hl. eauto.
Qed.

Lemma tinv_init : tinv t_init ∅ ∅.
Proof. split; [apply wf_init|]. intros k t Hk. by rewrite lookup_empty in Hk. Qed.
Lemma trun_ok ps : ∀ s m g, tinv s m g → trespects ps s m g →
  ∃ rs s' m', trun ps s = TFinished rs s' ∧ treplay ps rs m g m' ∧ shows (strings s') m'.
Proof.
  induction ps as [|p ps IH]; intros s m g Hi Hr; cbn [trun trespects] in *.
  { exists [], s, m. split_and!; [done|constructor|]. apply wf_shows, Hi. }
  assert (Hb : tstep (inline (strings s)) (capacity (strings s)) p m g ≠ TBad) by (intros E; by rewrite E in Hr).
  pose proof (texec_ok p s m g Hi Hb) as Hs. unfold tstep_ok in Hs.
  destruct (texec p s) as [r s'|e s'|f|] eqn:Hx; [| |done|done].
  - destruct Hs as (m' & g' & Hd & Hi'). rewrite Hd in Hr. destruct (IH s' m' g' Hi' Hr) as (rs & s2 & m2 & -> & Hp & Hsh).
    do 3 eexists. split_and!; [done| |done]. by eapply tr_done.
  - destruct Hs as (Hi' & Hwhy).
    assert (Hr' : trespects ps s' m g) by (by destruct (tstep _ _ p m g)).
    destruct (IH s' m g Hi' Hr') as (rs & s2 & m2 & -> & Hp & Hsh).
    do 3 eexists. split_and!; [done| |done].
    destruct Hwhy as [Ht|(o & -> & ? & ?)]; [by eapply tr_throws|by apply tr_failed].
Qed.
End view.
