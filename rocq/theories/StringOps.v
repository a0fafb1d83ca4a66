(** What the member functions of ptl::string (StringModel.v) do, part 1: swap, reserve,
    resize, push_back and construction. *)
From stdpp Require Import prelude gmap.
From Coq Require Import ZArith Lia.
From Verif Require Import Cpp StringModel StringSpec StringMem StringRep.
Local Open Scope nat_scope.

(** ** Buffers that start with given characters *)
Definition starts (c : list (option char)) (l : list char) : Prop :=
  ∀ k v, l !! k = Some v → c !! k = Some (Some v).
Lemma starts_len c l : starts c l → length l ≤ length c.
Proof.
  intros H. destruct (decide (length l ≤ length c)) as [|Hn]; [done|]. exfalso.
  destruct (lookup_lt_is_Some_2 l (length c)) as [v Hv]; [lia|].
  apply H, lookup_lt_Some in Hv. lia.
Qed.
Lemma starts_eq c l : starts c l → c = (Some <$> l) ++ drop (length l) c.
Proof.
  intros H. apply list_eq. intros k. destruct (l !! k) as [v|] eqn:Hk.
  - rewrite (H _ _ Hk). symmetry. apply lookup_app_l_Some. by rewrite list_lookup_fmap, Hk.
  - apply lookup_ge_None in Hk. rewrite lookup_app_r by (by rewrite fmap_length).
    rewrite lookup_drop, fmap_length. f_equal. lia.
Qed.
Lemma starts_app_inv c l k : starts c (l ++ k) → starts c l.
Proof. intros H i v Hi. apply H. by apply lookup_app_l_Some. Qed.
Lemma starts_take n c l : starts c l → starts c (take n l).
Proof. intros H i v Hi. apply H. apply lookup_take_Some in Hi. tauto. Qed.
Lemma starts_app l rest : starts ((Some <$> l) ++ rest) l.
Proof. intros k v Hk. apply lookup_app_l_Some. by rewrite list_lookup_fmap, Hk. Qed.
Lemma write_at_lookup {A} i (vs c : list A) k : i + length vs ≤ length c →
  write_at i vs c !! k = if decide (i ≤ k < i + length vs) then vs !! (k - i) else c !! k.
Proof.
  intros Hl. unfold write_at. destruct (decide (k < i)).
  - rewrite lookup_app_l by (rewrite take_length; lia). rewrite lookup_take by lia.
    by rewrite decide_False by lia.
  - rewrite lookup_app_r by (rewrite take_length; lia). rewrite take_length, Nat.min_l by lia.
    destruct (decide (k < i + length vs)).
    + rewrite lookup_app_l by lia. by rewrite decide_True by lia.
    + rewrite lookup_app_r by lia. rewrite lookup_drop. rewrite decide_False by lia. f_equal. lia.
Qed.
Lemma starts_write c l cs i : starts c l → i ≤ length l → i + length cs ≤ length c →
  starts (write_at i (Some <$> cs) c) (take i l ++ cs ++ drop (i + length cs) l).
Proof.
  intros H Hi Hl k v. rewrite write_at_lookup by (by rewrite fmap_length). rewrite fmap_length.
  destruct (decide (k < i)).
  - rewrite lookup_app_l by (rewrite take_length; lia). rewrite lookup_take by lia.
    rewrite decide_False by lia. apply H.
  - rewrite lookup_app_r by (rewrite take_length; lia). rewrite take_length, Nat.min_l by lia.
    destruct (decide (k < i + length cs)).
    + rewrite lookup_app_l by lia. rewrite decide_True by lia. intros Hv. by rewrite list_lookup_fmap, Hv.
    + rewrite lookup_app_r by lia. rewrite lookup_drop, decide_False by lia.
      replace (i + length cs + (k - i - length cs)) with k by lia. apply H.
Qed.
Lemma starts_append c l cs : starts c l → length l + length cs ≤ length c →
  starts (write_at (length l) (Some <$> cs) c) (l ++ cs).
Proof.
  intros H Hl. pose proof (starts_write c l cs (length l) H) as Hw.
  rewrite firstn_all, drop_ge, app_nil_r in Hw by lia. apply Hw; lia.
Qed.
Lemma starts_insert_ge c l k v : starts c l → length l ≤ k → starts (<[k:=v]> c) l.
Proof.
  intros H Hk i u Hi. pose proof (lookup_lt_Some _ _ _ Hi). rewrite list_lookup_insert_ne by lia. by apply H.
Qed.
Lemma starts_nul c l : starts c l → length l < length c → starts (<[length l:=Some NUL]> c) (l ++ [NUL]).
Proof.
  intros H Hl k v Hk. apply lookup_app_Some in Hk as [Hk|[Hge Hk]].
  - apply (starts_insert_ge c l); [done|lia|done].
  - apply list_lookup_singleton_Some in Hk as [? <-]. replace k with (length l) by lia. by apply list_lookup_insert.
Qed.
Lemma fmap_replicate_Some n (ch : char) : Some <$> replicate n ch = replicate n (Some ch).
Proof. by rewrite fmap_replicate. Qed.

Section proofs.
Context `{C : StrCfg}.
Notation raws := (gmap nat raw).

Lemma holds_starts r l : holds r l ↔ r_siz r = length l ∧ starts (r_cells r) (l ++ [NUL]).
Proof.
  split.
  - intros H. split; [apply H|]. intros k v. by eapply holds_lookup_nul.
  - intros [Hs H]. split; [done|]. apply starts_eq in H. rewrite fmap_app, <-app_assoc in H. eexists. exact H.
Qed.
Lemma holds_start r l : holds r l → starts (r_cells r) l.
Proof. intros [_ H]%holds_starts. by eapply starts_app_inv. Qed.
Lemma holds_set h c l : starts c l → length l < length c → holds (Raw h (length l) (<[length l:=Some NUL]> c)) l.
Proof. intros H Hl. apply holds_starts. split; [done|]. by apply starts_nul. Qed.
Lemma raw_eta r : r = Raw (r_home r) (r_siz r) (r_cells r).
Proof. by destruct r. Qed.
Lemma rep_eta w ρ x s : Rep w ρ → ρ !! x = Some s → Rep w (<[x:=Raw (r_home s) (r_siz s) (r_cells s)]> ρ).
Proof. intros H Hx. rewrite <-raw_eta. by rewrite insert_id. Qed.

(** ** The string in focus *)
Lemma x_data w ρ x s n c : Rep w (<[x:=Raw (r_home s) n c]> ρ) → str_data x w = Ok (hp x s, 0) w.
Proof. intros H. erewrite str_data_eq; [|exact H|by rewrite lookup_insert]. done. Qed.
Lemma x_size w ρ x s n c : Rep w (<[x:=Raw (r_home s) n c]> ρ) → str_size x w = Ok n w.
Proof. intros H. erewrite str_size_eq; [|exact H|by rewrite lookup_insert]. done. Qed.
Lemma x_cap w ρ x s n c : Rep w (<[x:=Raw (r_home s) n c]> ρ) → str_capacity x w = Ok (length c - 1) w.
Proof. intros H. erewrite str_capacity_eq; [|exact H|by rewrite lookup_insert]. done. Qed.
Lemma x_mem w ρ x s n c : Rep w (<[x:=Raw (r_home s) n c]> ρ) → mem w !! hp x s = Some c.
Proof. intros H. apply (rep_cells _ _ _ (Raw (r_home s) n c) H). by rewrite lookup_insert. Qed.
Lemma x_write w ρ x s n c c' : Rep w (<[x:=Raw (r_home s) n c]> ρ) → length c' = length c →
  Rep (mins (hp x s) c' w) (<[x:=Raw (r_home s) n c']> ρ).
Proof.
  intros H Hl. rewrite <-(insert_insert ρ x _ (Raw (r_home s) n c)).
  change (hp x s) with (hp x (Raw (r_home s) n c)).
  eapply (Rep_write w _ x (Raw (r_home s) n c)); [done|by rewrite lookup_insert|done].
Qed.
Lemma x_set w ρ x s n c k : cfg_ok → Rep w (<[x:=Raw (r_home s) n c]> ρ) → k < length c →
  ∃ w', set_size x k w = Ok tt w' ∧ same w w' ∧ Rep w' (<[x:=Raw (r_home s) k (<[k:=Some NUL]> c)]> ρ).
Proof.
  intros Hcfg H Hk.
  destruct (set_size_eq w _ x (Raw (r_home s) n c) k Hcfg H) as (w' & E & Hs & H').
  { by rewrite lookup_insert. } { unfold cap. cbn [r_cells]. lia. }
  exists w'. split; [done|]. split; [done|]. by rewrite insert_insert in H'.
Qed.
Lemma same_mins p c w : same w (mins p c w).
Proof. done. Qed.

(** ** Swap *)
Lemma Rep_shuffle w w' ρ x y r s r' s' : Rep w ρ → x ≠ y → ρ !! x = Some r → ρ !! y = Some s →
  objs w' = <[y:=conc s']> (<[x:=conc r']> (objs w)) →
  mem w' = <[hp y s':=r_cells s']> (<[hp x r':=r_cells r']> (delete (hp y s) (delete (hp x r) (mem w)))) →
  nextb w' = nextb w → hp x r' ≠ hp y s' → shape r' → shape s' →
  (hp x r' = inl x ∨ hp x r' = hp x r ∨ hp x r' = hp y s) → (hp y s' = inl y ∨ hp y s' = hp y s ∨ hp y s' = hp x r) →
  Rep w' (<[y:=s']> (<[x:=r']> ρ)).
Proof.
  intros H Hxy Hx Hy Ho Hm Hn Hne Hr' Hs' Hpx Hpy.
  pose proof (rep_cells _ _ _ _ H Hx) as Hmx. pose proof (rep_cells _ _ _ _ H Hy) as Hmy.
  assert (H1 : Rep (with_mem (delete (hp x r) (mem w)) (with_objs (delete x (objs w)) w)) (delete x ρ)).
  { eapply Rep_del; [exact H|done| |done]. unfold mdel. by rewrite Hx. }
  assert (Hy1 : delete x ρ !! y = Some s) by by rewrite lookup_delete_ne.
  assert (H2 : Rep (with_mem (delete (hp y s) (delete (hp x r) (mem w))) (with_objs (delete y (delete x (objs w))) w))
             (delete y (delete x ρ))).
  { eapply Rep_del; [exact H1|done| |done]. unfold mdel. by rewrite Hy1. }
  assert (Hin : ∀ z u, (z = x ∧ u = r) ∨ (z = y ∧ u = s) →
            (delete (hp y s) (delete (hp x r) (mem w))) !! (inl z : nat + nat) = None).
  { intros z u Hz. eapply (rep_inline_none _ _ z H2).
    destruct Hz as [[-> _]|[-> _]]; [|by rewrite lookup_delete].
    rewrite lookup_delete_ne by done. by rewrite lookup_delete. }
  assert (Hfree : ∀ p, (p = inl x ∨ p = inl y ∨ p = hp x r ∨ p = hp y s) →
            (delete (hp y s) (delete (hp x r) (mem w))) !! p = None).
  { intros p [ -> | [ -> | [ -> | -> ]]].
    - eapply Hin. by left.
    - eapply Hin. by right.
    - rewrite lookup_delete_None. right. by rewrite lookup_delete.
    - by rewrite lookup_delete. }
  assert (Hnb : ∀ z u b, hp z u = inr b → r_home u = Some b).
  { intros z u b. unfold hp. destruct (r_home u); [|done]. congruence. }
  assert (Hbx : ∀ b, r_home r' = Some b → b < nextb w).
  { intros b Hb. assert (E : hp x r' = inr b) by (unfold hp; by rewrite Hb).
    destruct Hpx as [E1|[E1|E1]]; rewrite E in E1; [done| |]; symmetry in E1; apply Hnb in E1;
      [by apply (rep_next _ _ H _ _ _ Hx)|by apply (rep_next _ _ H _ _ _ Hy)]. }
  assert (Hby : ∀ b, r_home s' = Some b → b < nextb w).
  { intros b Hb. assert (E : hp y s' = inr b) by (unfold hp; by rewrite Hb).
    destruct Hpy as [E1|[E1|E1]]; rewrite E in E1; [done| |]; symmetry in E1; apply Hnb in E1;
      [by apply (rep_next _ _ H _ _ _ Hy)|by apply (rep_next _ _ H _ _ _ Hx)]. }
  assert (H3 : Rep (with_mem (<[hp x r':=r_cells r']> (delete (hp y s) (delete (hp x r) (mem w))))
                     (with_objs (<[x:=conc r']> (delete y (delete x (objs w)))) w)) (<[x:=r']> (delete y (delete x ρ)))).
  { eapply Rep_add; [exact H2| | | |done| | |done].
    - rewrite lookup_delete_ne by done. by rewrite lookup_delete.
    - done.
    - done.
    - apply Hfree. tauto.
    - done. }
  assert (E1 : <[x:=r']> (delete y (delete x ρ)) = delete y (<[x:=r']> ρ)).
  { rewrite (delete_commute ρ). rewrite insert_delete_insert. by rewrite delete_insert_ne. }
  assert (E2 : <[x:=conc r']> (delete y (delete x (objs w))) = delete y (<[x:=conc r']> (objs w))).
  { rewrite (delete_commute (objs w)). rewrite insert_delete_insert. by rewrite delete_insert_ne. }
  rewrite E1, E2 in H3. rewrite <-(insert_delete_insert (<[x:=r']> ρ)).
  eapply Rep_add; [exact H3|by rewrite lookup_delete| | | | | |done].
  - cbn [objs with_objs with_mem]. by rewrite insert_delete_insert.
  - done.
  - cbn [nextb with_objs with_mem]. lia.
  - cbn [mem with_mem]. rewrite lookup_insert_ne by done. apply Hfree. tauto.
  - rewrite Hn. done.
Qed.

Lemma swap_eq w ρ x y r s l k : Rep w ρ → x ≠ y → ρ !! x = Some r → ρ !! y = Some s → holds r l → holds s k → cfg_ok →
  ∃ w' r' s', str_swap x y w = Ok tt w' ∧ same w w' ∧ Rep w' (<[y:=s']> (<[x:=r']> ρ)) ∧
    holds r' k ∧ holds s' l ∧ r_home r' = r_home s ∧ r_home s' = r_home r ∧
    (is_Some (r_home s) → r' = s) ∧ (is_Some (r_home r) → s' = r).
Proof.
  intros H Hxy Hx Hy Hl Hk Hcfg.
  pose proof (rep_obj _ _ _ _ H Hx) as Hox. pose proof (rep_cells _ _ _ _ H Hx) as Hmx.
  pose proof (rep_obj _ _ _ _ H Hy) as Hoy. pose proof (rep_cells _ _ _ _ H Hy) as Hmy.
  pose proof (rep_shape _ _ H _ _ Hx) as Hsx. pose proof (rep_shape _ _ H _ _ Hy) as Hsy.
  pose proof (holds_cap _ _ Hl) as Hcl. pose proof (holds_cap _ _ Hk) as Hck.
  pose proof (rep_len _ _ _ _ H Hx) as Hlx. pose proof (rep_len _ _ _ _ H Hy) as Hly.
  pose proof (proj1 Hl) as Hsl. pose proof (proj1 Hk) as Hsk.
  assert (Hpne : hp x r ≠ hp y s).
  { intros E. apply Hxy. by eapply (rep_inj _ _ H). }
  assert (Eln : ∀ j : list char, length j + 1 = length (j ++ [NUL])) by (intros; by rewrite app_length).
  unfold str_swap, noexcept. rewrite decide_False by done.
  erewrite bind_ok by by apply get_str_eq. erewrite bind_ok by by apply get_str_eq.
  unfold shape in Hsx, Hsy.
  destruct (r_home r) as [b|] eqn:Hb; destruct (r_home s) as [d|] eqn:Hd.
  - (* heap / heap *)
    assert (conc r = Str (Some (running b)) (UHeap b (cap r) (r_siz r))) as Er by (unfold conc; by rewrite Hb).
    assert (conc s = Str (Some (running d)) (UHeap d (cap s) (r_siz s))) as Es by (unfold conc; by rewrite Hd).
    pose proof (rep_inline_heap _ _ _ _ _ H Hx Hb) as Hix. pose proof (rep_inline_heap _ _ _ _ _ H Hy Hd) as Hiy.
    rewrite Er, Es in *. cbn [s_dealloc is_set andb].
    erewrite bind_ok by by eapply read_heap_eq.
    erewrite bind_ok by by eapply read_heap_eq.
    erewrite bind_ok by by eapply write_heap_eq.
    erewrite bind_ok by (eapply write_heap_eq; cbn [objs with_objs with_mem]; by rewrite lookup_insert_ne).
    cbn [s_dealloc]. erewrite bind_ok.
    2:{ eapply write_dealloc_eq. cbn [objs with_objs with_mem]. rewrite lookup_insert_ne by done. by rewrite lookup_insert. }
    erewrite write_dealloc_eq.
    2:{ cbn [objs with_objs with_mem]. rewrite lookup_insert_ne by done. by rewrite lookup_insert. }
    eexists _, s, r. split; [reflexivity|]. split; [done|]. sp; try done.
    assert (hp x r = inr b) as Ex by (unfold hp; by rewrite Hb).
    assert (hp y s = inr d) as Ey by (unfold hp; by rewrite Hd).
    assert (hp x s = inr d) as Ex' by (unfold hp; by rewrite Hd).
    assert (hp y r = inr b) as Ey' by (unfold hp; by rewrite Hb).
    rewrite Ex, Ey in *.
    eapply Rep_shuffle; [exact H|done|exact Hx|exact Hy|..]; rewrite ?Ex, ?Ey, ?Ex', ?Ey'; try done; try tauto.
    + cbn [objs with_objs with_mem s_u]. rewrite Er, Es.
      rewrite insert_commute by done. rewrite !insert_insert.
      rewrite (insert_commute _ y) by done. rewrite insert_insert. by rewrite insert_commute by done.
    + cbn [mem with_objs with_mem]. rewrite (delete_notin (mem w) (inl x)) by done.
      rewrite (delete_notin (mem w) (inl y)) by done.
      apply map_eq. intros p. destruct (decide (p = inr b)) as [->|]; [by rewrite lookup_insert|].
      rewrite lookup_insert_ne by done. destruct (decide (p = inr d)) as [->|]; [by rewrite lookup_insert|].
      rewrite lookup_insert_ne by done. by rewrite !lookup_delete_ne by done.
    + unfold shape. by rewrite Hd.
    + unfold shape. by rewrite Hb.
  - (* heap / inline *)
    assert (conc r = Str (Some (running b)) (UHeap b (cap r) (r_siz r))) as Er by (unfold conc; by rewrite Hb).
    assert (conc s = Str None (USso (r_siz s))) as Es by (unfold conc; by rewrite Hd).
    assert (hp x r = inr b) as Ex by (unfold hp; by rewrite Hb).
    assert (hp y s = inl y) as Ey by (unfold hp; by rewrite Hd).
    pose proof (rep_inline_heap _ _ _ _ _ H Hx Hb) as Hix.
    rewrite Er, Es, Ex, Ey in *. cbn [s_dealloc is_set andb negb].
    erewrite bind_ok by by eapply read_heap_eq.
    erewrite bind_ok by by eapply read_sso_eq. rewrite Hsk.
    erewrite bind_ok by by eapply write_sso_inactive.
    rewrite Eln. erewrite bind_ok.
    2:{ eapply copy_n_eq.
        - cbn [mem with_mem]. rewrite lookup_insert_ne by congruence. exact Hmy.
        - intros i v Hi. rewrite Nat.add_0_l. by eapply holds_lookup_nul.
        - cbn [mem with_mem]. by rewrite lookup_insert.
        - rewrite replicate_length, app_length. cbn [length]. lia.
        - congruence. }
    erewrite bind_ok.
    2:{ eapply write_heap_eq. cbn [objs mins with_objs with_mem]. by rewrite lookup_insert_ne. }
    cbn [s_dealloc]. erewrite bind_ok.
    2:{ eapply write_dealloc_eq. cbn [objs mins with_objs with_mem]. rewrite lookup_insert_ne by done. by rewrite lookup_insert. }
    erewrite write_dealloc_eq.
    2:{ cbn [objs with_objs with_mem]. rewrite lookup_insert_ne by done. by rewrite lookup_insert. }
    set (r' := Raw None (length k) (write_at 0 (Some <$> (k ++ [NUL])) (replicate (sso_size + 1) None))).
    eexists _, r', r. split; [reflexivity|]. split; [done|]. sp; try done.
    2:{ apply holds_full. rewrite replicate_length. lia. }
    2:{ by intros [? ?]. }
    assert (hp y r = inr b) as Ey' by (unfold hp; by rewrite Hb).
    eapply Rep_shuffle; [exact H|done|exact Hx|exact Hy|..]; rewrite ?Ex, ?Ey, ?Ey'; try done; try tauto.
    + cbn [objs mins with_objs with_mem s_u]. rewrite Er. unfold conc. cbn [r' r_home r_siz].
      rewrite insert_commute by done. rewrite !insert_insert.
      rewrite (insert_commute _ y) by done. rewrite insert_insert. by rewrite insert_commute by done.
    + cbn [mem mins with_objs with_mem hp r' r_home r_cells].
      apply map_eq. intros p. destruct (decide (p = inr b)) as [->|].
      { rewrite lookup_insert. rewrite lookup_delete_ne by done. by rewrite !lookup_insert_ne by done. }
      rewrite lookup_insert_ne by done.
      destruct (decide (p = inl y)) as [->|]; [rewrite lookup_delete, lookup_insert_ne by congruence; by rewrite lookup_delete|].
      rewrite lookup_delete_ne by done.
      destruct (decide (p = inl x)) as [->|]; [by rewrite !lookup_insert|].
      by rewrite !lookup_insert_ne, !lookup_delete_ne by done.
    + unfold shape. cbn [r' r_home r_cells]. rewrite write_at_length; [by rewrite replicate_length|].
      rewrite fmap_length, app_length, replicate_length. cbn [length]. lia.
    + unfold shape. by rewrite Hb.
  - (* inline / heap *)
    assert (conc r = Str None (USso (r_siz r))) as Er by (unfold conc; by rewrite Hb).
    assert (conc s = Str (Some (running d)) (UHeap d (cap s) (r_siz s))) as Es by (unfold conc; by rewrite Hd).
    assert (hp x r = inl x) as Ex by (unfold hp; by rewrite Hb).
    assert (hp y s = inr d) as Ey by (unfold hp; by rewrite Hd).
    pose proof (rep_inline_heap _ _ _ _ _ H Hy Hd) as Hiy.
    rewrite Er, Es, Ex, Ey in *. cbn [s_dealloc is_set andb negb].
    erewrite bind_ok by by eapply read_heap_eq.
    erewrite bind_ok by by eapply read_sso_eq. rewrite Hsl.
    erewrite bind_ok by by eapply write_sso_inactive.
    rewrite Eln. erewrite bind_ok.
    2:{ eapply copy_n_eq.
        - cbn [mem with_mem]. rewrite lookup_insert_ne by congruence. exact Hmx.
        - intros i v Hi. rewrite Nat.add_0_l. by eapply holds_lookup_nul.
        - cbn [mem with_mem]. by rewrite lookup_insert.
        - rewrite replicate_length, app_length. cbn [length]. lia.
        - congruence. }
    erewrite bind_ok.
    2:{ eapply write_heap_eq. cbn [objs mins with_objs with_mem]. by rewrite lookup_insert_ne. }
    cbn [s_dealloc]. erewrite bind_ok.
    2:{ eapply write_dealloc_eq. cbn [objs mins with_objs with_mem]. by rewrite lookup_insert. }
    erewrite write_dealloc_eq.
    2:{ cbn [objs mins with_objs with_mem]. rewrite lookup_insert_ne by done. rewrite lookup_insert_ne by done.
        by rewrite lookup_insert. }
    set (s' := Raw None (length l) (write_at 0 (Some <$> (l ++ [NUL])) (replicate (sso_size + 1) None))).
    eexists _, s, s'. split; [reflexivity|]. split; [done|]. sp; try done.
    2:{ apply holds_full. rewrite replicate_length. lia. }
    2:{ by intros [? ?]. }
    assert (hp x s = inr d) as Ex' by (unfold hp; by rewrite Hd).
    eapply Rep_shuffle; [exact H|done|exact Hx|exact Hy|..]; rewrite ?Ex, ?Ey, ?Ex'; try done; try tauto.
    + cbn [objs mins with_objs with_mem s_u]. rewrite Es. unfold conc. cbn [s' r_home r_siz].
      rewrite !insert_insert. rewrite (insert_commute _ x y) by done. by rewrite !insert_insert.
    + cbn [mem mins with_objs with_mem hp s' r_home r_cells].
      apply map_eq. intros p. destruct (decide (p = inr d)) as [->|].
      { rewrite lookup_delete_ne by done. rewrite !(lookup_insert_ne _ (inl y)) by done. by rewrite lookup_insert. }
      destruct (decide (p = inl y)) as [->|].
      { rewrite lookup_delete_ne by congruence. by rewrite !lookup_insert. }
      destruct (decide (p = inl x)) as [->|].
      { rewrite lookup_delete, !lookup_insert_ne by congruence. rewrite lookup_delete_ne by done. by rewrite lookup_delete. }
      rewrite lookup_delete_ne by done.
      by rewrite !lookup_insert_ne, !lookup_delete_ne by done.
    + unfold shape. by rewrite Hd.
    + unfold shape. cbn [s' r_home r_cells]. rewrite write_at_length; [by rewrite replicate_length|].
      rewrite fmap_length, app_length, replicate_length. cbn [length]. lia.
  - (* inline / inline *)
    assert (conc r = Str None (USso (r_siz r))) as Er by (unfold conc; by rewrite Hb).
    assert (conc s = Str None (USso (r_siz s))) as Es by (unfold conc; by rewrite Hd).
    assert (hp x r = inl x) as Ex by (unfold hp; by rewrite Hb).
    assert (hp y s = inl y) as Ey by (unfold hp; by rewrite Hd).
    rewrite Er, Es, Ex, Ey in *. cbn [s_dealloc is_set andb negb].
    erewrite bind_ok by by eapply read_sso_eq. rewrite Hsl.
    rewrite Eln. erewrite bind_ok.
    2:{ eapply load_eq; [exact Hmx|]. intros i v Hi. rewrite Nat.add_0_l. by eapply holds_lookup_nul. }
    erewrite bind_ok by by eapply read_sso_eq. rewrite Hsk, Eln.
    erewrite bind_ok.
    2:{ eapply copy_n_eq; [exact Hmy| |exact Hmx| |].
        - intros i v Hi. rewrite Nat.add_0_l. by eapply holds_lookup_nul.
        - rewrite app_length. cbn [length]. lia.
        - congruence. }
    erewrite bind_ok by by eapply read_sso_eq. rewrite Hsl, Eln.
    erewrite bind_ok.
    2:{ eapply copy_from_eq.
        - cbn [mem mins with_mem]. rewrite lookup_insert_ne by congruence. exact Hmy.
        - rewrite app_length. cbn [length]. lia.
        - intros i v Hi. cbn [den]. done. }
    erewrite bind_ok.
    2:{ eapply write_sso_active. exact Hox. }
    erewrite write_sso_active.
    2:{ cbn [objs mins with_objs with_mem]. rewrite lookup_insert_ne by done. exact Hoy. }
    set (r' := Raw None (length k) (write_at 0 (Some <$> (k ++ [NUL])) (r_cells r))).
    set (s' := Raw None (length l) (write_at 0 (Some <$> (l ++ [NUL])) (r_cells s))).
    eexists _, r', s'. split; [reflexivity|]. split; [done|]. sp; try done.
    2:{ apply holds_full. lia. } 2:{ apply holds_full. lia. } 2,3: by intros [? ?].
    eapply Rep_shuffle; [exact H|done|exact Hx|exact Hy|..]; rewrite ?Ex, ?Ey; try done; try tauto.
    + cbn [mem mins with_objs with_mem hp r' s' r_home r_cells].
      apply map_eq. intros p. destruct (decide (p = inl y)) as [->|]; [by rewrite !lookup_insert|].
      rewrite !(lookup_insert_ne _ (inl y)) by done.
      destruct (decide (p = inl x)) as [->|]; [by rewrite !lookup_insert|].
      by rewrite !lookup_insert_ne, !lookup_delete_ne by done.
    + unfold shape. cbn [r' r_home r_cells]. rewrite write_at_length; [done|].
      rewrite fmap_length, app_length. cbn [length]. lia.
    + unfold shape. cbn [s' r_home r_cells]. rewrite write_at_length; [done|].
      rewrite fmap_length, app_length. cbn [length]. lia.
Qed.

(** ** Growing *)
Definition excuse (w : world) (d : nat) (e : exn) (w' : world) : Prop :=
  match e with
  | BadAlloc => (∃ k, nalloc w ≤ k < nalloc w' ∧ alloc_fails k = true) ∨ ptrdiff_max < d + footprint
  | LengthError => max_size < d
  | _ => False
  end.
Lemma excuse_mono w0 w w' w'' d d' e : later w0 w → later w' w'' → d ≤ d' → excuse w d e w' → excuse w0 d' e w''.
Proof.
  unfold later, excuse. intros H1 H2 Hd. destruct e; try done; [lia|].
  intros [(k & Hk & ?)|?]; [left; exists k; split; [lia|done]|right; lia].
Qed.
Definition kept (s r : raw) : Prop := r_home r = r_home s ∧ cap r = cap s.
Lemma kept_refl s : kept s s.
Proof. done. Qed.
(** the call succeeded: [x] holds [l]; with capacity for [n] characters nothing was allocated *)
Definition mods (w : world) (ρ : raws) (x : nat) (s : raw) (n : nat) (l : list char) (w' : world) : Prop :=
  ∃ r, Rep w' (<[x:=r]> ρ) ∧ holds r l ∧ later w w' ∧ (n ≤ cap s → kept s r ∧ same w w').
(** the call failed: nothing changed, and [n] characters would not have fitted *)
Definition fails (w : world) (ρ : raws) (s : raw) (n d : nat) (e : exn) (w' : world) : Prop :=
  Rep w' ρ ∧ later w w' ∧ cap s < n ∧ excuse w d e w'.
(** a failing construction *)
Definition undone (w : world) (ρ : raws) (d : nat) (e : exn) (w' : world) : Prop :=
  Rep w' ρ ∧ later w w' ∧ excuse w d e w'.

Lemma refused_excuse w n e w' : refused w n e w' → excuse w n e w' ∧ later w w'.
Proof.
  intros (-> & Ha & Hc & Hn & Hw). split; [|unfold later; lia]. cbn [excuse].
  destruct Hw as [?|?]; [left; exists (nalloc w); split; [lia|done]|by right].
Qed.
Lemma newly_later w n w' q : newly w n w' q → later w w'.
Proof. unfold newly. tauto. Qed.

Section ok.
Context (Hcfg : cfg_ok).

Lemma shape_cap r : shape r → sso_size ≤ cap r ∧ cap r + 1 ≤ ptrdiff_max.
Proof.
  intros H. pose proof (cap_len _ H) as Hl. unfold shape in H. destruct Hcfg as (Hp & _ & _ & _ & Hm).
  unfold sso_size in *. unfold footprint in *. destruct (r_home r) as [b|].
  - destruct H as [(k & Hk & E) ?]. split; [nia|lia].
  - lia.
Qed.
Lemma rep_cap w ρ x r : Rep w ρ → ρ !! x = Some r → sso_size ≤ cap r ∧ cap r + 1 ≤ ptrdiff_max.
Proof. intros H Hx. by eapply shape_cap, rep_shape. Qed.
Lemma small_wadd a b : a + b ≤ ptrdiff_max + 1 → wadd a b = a + b.
Proof.
  intros H. apply wadd_small. destruct Hcfg as (_ & _ & _ & Hw & Hm). pose proof (ptrdiff_half Hw). lia.
Qed.
Lemma small_roomy n : n ≤ ptrdiff_max + 1 → roomy n.
Proof.
  intros H. unfold roomy. destruct Hcfg as (_ & _ & _ & Hw & Hm). pose proof (ptrdiff_half Hw). lia.
Qed.
Lemma roomy_wadd a b : roomy (a + b) → wadd a b = a + b.
Proof.
  intros H. apply wadd_small. unfold roomy in H. destruct Hcfg as (? & _). unfold footprint in *. lia.
Qed.
Lemma countable_wadd a b : countable (a + b) → wadd a b = a + b.
Proof. intros H. apply wadd_small. unfold countable in H. lia. Qed.
Lemma roomy_countable n : roomy n → countable n.
Proof. unfold roomy, countable. destruct Hcfg as (? & _). unfold footprint. lia. Qed.

(** storage = n; *)
Lemma storage_assign_run w ρ x s n : Rep w ρ → ρ !! x = Some s → roomy n →
  run_to (storage_assign x n) w
    (λ _ w', ∃ r, Rep w' (<[x:=r]> ρ) ∧ holds r [] ∧ n ≤ cap r ∧ later w w' ∧ (n ≤ sso_size → nalloc w' = nalloc w))
    (λ e w', undone w ρ n e w').
Proof.
  intros H Hx Hr. unfold storage_assign.
  destruct (temp_name_eq w ρ H) as (t & Et & Ht). eapply run_to_bind_ok; [exact Et|].
  apply run_to_bind. eapply run_to_mono; [by apply (storage_new_run w ρ t n Hcfg)|..].
  - intros [] w1 (q & H1 & Hq).
    destruct (commit_eq w1 ρ x t s q [] H1 Ht Hx (proj1 Hq) Hcfg) as (w2 & r & E & Hs & H2 & Hl & Hh & Hqr).
    eapply run_to_eq; [exact E|]. exists r. sp; [done|done| | |].
    + pose proof (rep_cap _ _ x r H2 ltac:(by rewrite lookup_insert)).
      destruct Hq as (_ & Hn & _ & _ & Hi & Hg). destruct (decide (n ≤ sso_size)); [lia|].
      rewrite Hqr; [done|]. destruct Hg as (-> & _); [lia|eauto].
    + eapply later_trans; [by eapply newly_later|by apply same_later].
    + intros Hn. destruct Hq as (_ & _ & _ & _ & Hi & _). destruct (Hi Hn) as [_ (_ & Ha & _)].
      destruct Hs as (_ & Ha' & _). congruence.
  - intros e w1 (H1 & _ & Hf). destruct (refused_excuse _ _ _ _ Hf). by split.
Qed.

(** reserve *)
Lemma reserve_run w ρ x s l n : Rep w ρ → ρ !! x = Some s → holds s l →
  run_to (str_reserve x n) w
    (λ _ w', ∃ r, Rep w' (<[x:=r]> ρ) ∧ holds r l ∧ later w w' ∧ n ≤ cap r ∧
       (n ≤ cap s → r = s ∧ w' = w) ∧
       (cap s < n → ncopied w' = ncopied w + length l ∧ nalloc w' = S (nalloc w) ∧
                    r_home r = Some (nextb w) ∧ cap r = heap_cap n))
    (λ e w', fails w ρ s n n e w').
Proof.
  intros H Hx Hl. unfold str_reserve. eapply run_to_bind_ok; [by eapply str_capacity_eq|].
  destruct (Nat.leb_spec n (cap s)) as [Hle|Hgt].
  { apply run_to_ret. exists s. rewrite insert_id by done. sp; try done; lia. }
  destruct (Nat.ltb_spec max_size n) as [Hbig|Hfit].
  { unfold run_to, throw. split; [done|]. split; [apply later_refl|]. by split. }
  pose proof (rep_cap _ _ _ _ H Hx) as [Hcs1 Hcs2].
  destruct (temp_name_eq w ρ H) as (t & Et & Ht). eapply run_to_bind_ok; [exact Et|].
  assert (Hxt : x ≠ t) by congruence.
  assert (Hro : roomy n) by (apply small_roomy; unfold max_size in *; lia).
  apply run_to_bind. eapply run_to_mono; [by apply (storage_new_run w ρ t n Hcfg)|..].
  2:{ intros e w1 (H1 & _ & Hf). destruct (refused_excuse _ _ _ _ Hf). by sp. }
  intros [] w1 (q & H1 & Hq). pose proof Hq as Hq'.
  destruct Hq' as (Hql & Hqn & Hqc & Hqlt & _ & Hqg). destruct Hqg as (Hqh & Hqcap & Hqa); [lia|].
  pose proof (holds_cap _ _ Hl) as Hcl. pose proof (proj1 Hl) as Hsz.
  assert (Hx1 : <[t:=q]> ρ !! x = Some s) by by rewrite lookup_insert_ne.
  eapply run_to_bind_ok; [by eapply str_size_eq|]. rewrite Hsz.
  pose proof H1 as H1'. rewrite (raw_eta q) in H1'.
  pose proof (rep_len _ _ _ _ H1 (lookup_insert _ _ _)) as Hlq.
  destruct (x_set w1 ρ t q _ _ (length l) Hcfg H1') as (w2 & E2 & Hs2 & H2); [lia|].
  eapply run_to_bind_ok; [exact E2|].
  set (c2 := <[length l:=Some NUL]> (r_cells q)) in *.
  assert (Hlc2 : length c2 = cap q + 1) by (unfold c2; by rewrite insert_length).
  assert (Hcopy : ∃ w3 c3, ((if length l =? 0 then ret tt
     else d <- str_data x ;; e <- str_data t ;; copy_n d (wadd (length l) 1) e ;;; count_copied (length l)) w2 = Ok tt w3) ∧
     Rep w3 (<[t:=Raw (r_home q) (length l) c3]> ρ) ∧ holds (Raw (r_home q) (length l) c3) l ∧ length c3 = cap q + 1 ∧
     nextb w3 = nextb w2 ∧ nalloc w3 = nalloc w2 ∧ ncopied w3 = ncopied w2 + length l).
  { destruct (Nat.eqb_spec (length l) 0) as [E0|_].
    { exists w2, c2. rewrite E0. destruct l; [|done]. split; [done|]. cbn [length] in *.
      sp; [exact H2| |exact Hlc2|done|done|lia].
      apply (holds_set (r_home q) (r_cells q) []); [done|cbn [length]; lia]. }
    assert (Hx2 : <[t:=Raw (r_home q) (length l) c2]> ρ !! x = Some s) by by rewrite lookup_insert_ne.
    assert (Hne : hp x s ≠ hp t q).
    { intros E. apply Hxt. eapply (rep_inj _ _ H2 x t s (Raw (r_home q) (length l) c2)); [done|by rewrite lookup_insert|done]. }
    erewrite bind_ok by by eapply str_data_eq. erewrite bind_ok by by eapply x_data.
    rewrite small_wadd by lia.
    replace (length l + 1) with (length (l ++ [NUL])) by (by rewrite app_length).
    erewrite bind_ok.
    2:{ eapply (copy_n_eq (l ++ [NUL]) _ _ (r_cells s)); [by eapply rep_cells| |by eapply x_mem| |].
        - intros k v Hk. rewrite Nat.add_0_l. by eapply holds_lookup_nul.
        - rewrite app_length. cbn [length]. lia.
        - done. }
    eexists _, (write_at 0 (Some <$> l ++ [NUL]) c2). split; [reflexivity|].
    assert (Hw : length (write_at 0 (Some <$> l ++ [NUL]) c2) = length c2).
    { apply write_at_length. rewrite fmap_length, app_length. cbn [length]. lia. }
    sp; try done.
    - pose proof (x_write _ _ _ _ _ _ _ H2 Hw) as H3. destruct H3 as [R1 R2 R3 R4 R5]. by split.
    - apply holds_full. lia.
    - lia. }
  destruct Hcopy as (w3 & c3 & E3 & H3 & Hl3 & Hlc3 & Hn3 & Ha3 & Hc3).
  eapply run_to_bind_ok; [exact E3|].
  destruct (commit_eq w3 ρ x t s _ l H3 Ht Hx Hl3 Hcfg) as (w4 & r & E4 & Hs4 & H4 & Hl4 & Hh4 & Hq4).
  cbn [r_home] in Hh4, Hq4. eapply run_to_eq; [exact E4|].
  rewrite Hqh in Hq4. specialize (Hq4 ltac:(eauto)). subst r.
  destruct Hs2 as (? & ? & ?). destruct Hs4 as (? & ? & ?).
  eexists. split; [exact H4|]. split; [done|]. unfold cap. cbn [r_cells r_home]. rewrite Hlc3, Nat.add_sub.
  sp; [unfold later in *; lia|lia|unfold cap in *; lia|].
  intros _. sp; [lia|lia|done|done].
Qed.

(** resize(n, ch) *)
Lemma resize_run w ρ x s l n ch : Rep w ρ → ρ !! x = Some s → holds s l →
  run_to (str_resize_fill x n ch) w
    (λ _ w', mods w ρ x s n (take n l ++ replicate (n - length l) ch) w')
    (λ e w', fails w ρ s n n e w').
Proof.
  intros H Hx Hl. unfold str_resize_fill. eapply run_to_bind_ok; [by eapply str_size_eq|].
  rewrite (proj1 Hl). apply run_to_bind. eapply run_to_mono; [by eapply reserve_run| |done].
  intros [] w1 (r & H1 & Hl1 & Hlt & Hn & Hkeep & _). pose proof H1 as H1'. rewrite (raw_eta r) in H1'.
  pose proof (rep_len _ _ _ _ H1 (lookup_insert _ _ _)) as Hlr. pose proof (holds_cap _ _ Hl1) as Hcl.
  destruct (x_set w1 ρ x r _ _ n Hcfg H1') as (w2 & E2 & Hs2 & H2); [lia|].
  eapply run_to_bind_ok; [exact E2|]. eapply run_to_bind_ok; [by eapply x_size|].
  assert (Hkp : ∀ c', length c' = length (r_cells r) → n ≤ cap s → kept s (Raw (r_home r) n c') ∧ same w w2).
  { intros c' Hc' Hle. destruct (Hkeep Hle) as [-> ->]. split; [|done]. split; [done|]. unfold cap. cbn [r_cells]. by rewrite Hc'. }
  pose proof (holds_start _ _ Hl1) as Hst.
  destruct (Nat.ltb_spec (length l) n) as [Hlt2|Hge].
  - eapply run_to_bind_ok; [by eapply x_data|]. unfold padd. cbn [fst snd]. rewrite Nat.add_0_l.
    set (c2 := <[n:=Some NUL]> (r_cells r)) in *.
    assert (Hlc2 : length c2 = cap r + 1) by (unfold c2; by rewrite insert_length).
    eapply run_to_eq.
    { apply (fill_n_eq _ _ w2 _ c2); [by eapply x_mem|lia]. }
    assert (Hw : length (write_at (length l) (replicate (n - length l) (Some ch)) c2) = length c2).
    { apply write_at_length. rewrite replicate_length. lia. }
    eexists. split; [by eapply x_write|]. sp.
    + rewrite <-fmap_replicate_Some. apply holds_starts. cbn [r_siz r_cells]. split.
      { rewrite app_length, take_length, replicate_length. lia. }
      rewrite take_ge by lia.
      assert (Hst2 : starts (write_at (length l) (Some <$> replicate (n - length l) ch) c2) (l ++ replicate (n - length l) ch)).
      { apply starts_append; [|rewrite replicate_length; lia]. apply starts_insert_ge; [done|lia]. }
      intros k v Hk. apply lookup_app_Some in Hk as [Hk|[Hk1 Hk]]; [by apply Hst2|].
      apply list_lookup_singleton_Some in Hk as [Hk2 <-]. rewrite app_length, replicate_length in *.
      rewrite write_at_lookup by (rewrite fmap_length, replicate_length; lia).
      rewrite fmap_length, replicate_length, decide_False by lia. replace k with n by lia.
      apply list_lookup_insert. lia.
    + eapply later_trans; [done|]. by apply same_later.
    + intros Hle. destruct (Hkp (write_at (length l) (replicate (n - length l) (Some ch)) c2)) as [? ?]; [unfold c2 in *; by rewrite Hw, insert_length|done|].
      done.
  - apply run_to_ret. eexists. split; [exact H2|]. replace (n - length l) with 0 by lia. cbn [replicate]. rewrite app_nil_r.
    sp.
    + pose proof (holds_set (r_home r) (r_cells r) (take n l)) as Hh. rewrite take_length, Nat.min_l in Hh by lia.
      apply Hh; [by apply starts_take|lia].
    + eapply later_trans; [done|]. by apply same_later.
    + apply Hkp. by rewrite insert_length.
Qed.

(** push_back *)
Lemma push_back_run w ρ x s l ch : Rep w ρ → ρ !! x = Some s → holds s l →
  run_to (str_push_back x ch) w
    (λ _ w', mods w ρ x s (S (length l)) (l ++ [ch]) w' ∧
       (cap s = length l → ncopied w' = ncopied w + length l ∧ ∃ r, Rep w' (<[x:=r]> ρ) ∧ cap r = heap_cap (S (length l))))
    (λ e w', fails w ρ s (S (length l)) (S (length l)) e w').
Proof.
  intros H Hx Hl. unfold str_push_back. eapply run_to_bind_ok; [by eapply str_size_eq|].
  eapply run_to_bind_ok; [by eapply str_capacity_eq|]. rewrite (proj1 Hl).
  pose proof (rep_cap _ _ _ _ H Hx) as [Hcs1 Hcs2]. pose proof (holds_cap _ _ Hl) as Hcl.
  assert (Ew : wadd (length l) 1 = S (length l)) by (rewrite small_wadd; lia).
  assert (Et : ∀ j, take (S (length j)) j ++ replicate (S (length j) - length j) ch = j ++ [ch]).
  { intros j. rewrite take_ge by lia. by replace (S (length j) - length j) with 1 by lia. }
  rewrite Ew. destruct (Nat.eqb_spec (length l) (cap s)) as [Ec|Hne].
  - apply run_to_bind. eapply run_to_mono; [by eapply reserve_run| |done].
    intros [] w1 (r & H1 & Hl1 & Hlt & Hn & _ & Hgrow). destruct Hgrow as (Hg1 & Hg2 & Hg3 & Hg4); [lia|].
    eapply run_to_bind_ok; [eapply (str_size_eq _ _ x r); [done|by rewrite lookup_insert]|].
    rewrite (proj1 Hl1), Ew.
    eapply run_to_mono; [eapply (resize_run w1 _ x r l); [done|by rewrite lookup_insert|done]|..].
    + intros [] w2 (r2 & H2 & Hl2 & Hlt2 & Hk2). rewrite insert_insert in H2. rewrite Et in Hl2.
      destruct (Hk2 Hn) as [[Hh Hc] (S1 & S2 & S3)]. split.
      * exists r2. sp; [done|done|by eapply later_trans|]. lia.
      * intros _. split; [lia|]. exists r2. split; [done|]. congruence.
    + intros e w2 (_ & _ & Hc & _). lia.
  - eapply run_to_bind_ok; [done|]. eapply run_to_bind_ok; [by eapply str_size_eq|].
    rewrite (proj1 Hl), Ew. eapply run_to_mono; [by eapply resize_run| |done].
    intros [] w2 Hm. rewrite Et in Hm. split; [done|]. lia.
Qed.

(** pop_back, clear *)
Lemma cut_run w ρ x s l n : Rep w ρ → ρ !! x = Some s → holds s l → n ≤ length l →
  ∃ w', set_size x n w = Ok tt w' ∧ same w w' ∧ ∃ r, Rep w' (<[x:=r]> ρ) ∧ holds r (take n l) ∧ kept s r.
Proof.
  intros H Hx Hl Hn. pose proof (holds_cap _ _ Hl) as Hcl. pose proof (rep_len _ _ _ _ H Hx) as Hlr.
  destruct (set_size_eq w ρ x s n Hcfg H Hx) as (w' & E & Hs & H'); [lia|].
  exists w'. sp; [done|done|]. eexists. split; [exact H'|]. split.
  - pose proof (holds_set (r_home s) (r_cells s) (take n l)) as Hh. rewrite take_length, Nat.min_l in Hh by lia.
    apply Hh; [|lia]. by apply starts_take, holds_start.
  - split; [done|]. unfold cap. cbn [r_cells]. by rewrite insert_length.
Qed.

(** erase *)
Lemma erase_eq w ρ x s l i j : Rep w ρ → ρ !! x = Some s → holds s l → i ≤ j ≤ length l →
  ∃ w', str_erase x i j w = Ok i w' ∧ same w w' ∧ ∃ r, Rep w' (<[x:=r]> ρ) ∧ holds r (take i l ++ drop j l) ∧ kept s r.
Proof.
  intros H Hx Hl Hij. pose proof (holds_cap _ _ Hl) as Hcl. pose proof (rep_len _ _ _ _ H Hx) as Hlr.
  unfold str_erase, noexcept. erewrite bind_ok by by eapply str_data_eq. erewrite bind_ok by by eapply str_size_eq.
  rewrite (proj1 Hl). unfold padd. cbn [fst snd]. rewrite !Nat.add_0_l.
  rewrite <-(drop_length l j). erewrite bind_ok.
  2:{ eapply (copy_n_eq (drop j l)); [by eapply rep_cells| |by eapply rep_cells| |].
      - intros k v Hk. rewrite lookup_drop in Hk. by eapply holds_lookup.
      - rewrite drop_length. lia.
      - lia. }
  pose proof (rep_eta _ _ _ _ H Hx) as H0.
  assert (Hw : length (write_at i (Some <$> drop j l) (r_cells s)) = length (r_cells s)).
  { apply write_at_length. rewrite fmap_length, drop_length. lia. }
  pose proof (x_write _ _ _ _ _ _ _ H0 Hw) as H1.
  destruct (x_set _ ρ x s _ _ (length l - (j - i)) Hcfg H1) as (w' & E & Hs & H'); [lia|].
  erewrite bind_ok by exact E. exists w'. sp; [done|done|]. eexists. split; [exact H'|]. split.
  - pose proof (holds_set (r_home s) (write_at i (Some <$> drop j l) (r_cells s)) (take i l ++ drop j l)) as Hh.
    rewrite app_length, take_length, drop_length, Nat.min_l in Hh by lia.
    replace (i + (length l - j)) with (length l - (j - i)) in Hh by lia.
    apply Hh; [|lia].
    pose proof (starts_write (r_cells s) l (drop j l) i (holds_start _ _ Hl)) as Hst.
    rewrite drop_length in Hst. specialize (Hst ltac:(lia) ltac:(lia)).
    rewrite app_assoc in Hst. by eapply starts_app_inv.
  - split; [done|]. unfold cap. cbn [r_cells]. by rewrite insert_length, Hw.
Qed.
End ok.
End proofs.
