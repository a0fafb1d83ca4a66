(** What the member functions of ptl::string (StringModel.v) do, part 3: append, assign,
    insert and replace from ranges that may alias the string, and from input iterators. *)
From stdpp Require Import prelude gmap.
From Coq Require Import ZArith Lia.
From Verif Require Import Cpp StringModel StringSpec StringMem StringRep StringOps StringOps2.
Local Open Scope nat_scope.

Section proofs.
Context `{C : StrCfg} (Hcfg : cfg_ok).
Notation raws := (gmap nat raw).

Definition sets (w : world) (ρ : raws) (x : nat) (l : list char) (w' : world) : Prop :=
  ∃ r, Rep w' (<[x:=r]> ρ) ∧ holds r l ∧ later w w'.
Lemma mods_sets w ρ x s n l w' : mods w ρ x s n l w' → sets w ρ x l w'.
Proof. intros (r & ? & ? & ? & _). by exists r. Qed.
Lemma fails_undone w ρ s n d e w' : fails w ρ s n d e w' → undone w ρ d e w'.
Proof. intros (? & ? & _ & ?). by split. Qed.
Lemma src_Some ρ from cs : src_ok ρ from (Some <$> cs) → ∀ k v, cs !! k = Some v →
  match from k with
  | CVal o => o = Some v
  | CPtr (q, i) => is_Some (Some v) ∧ ∃ y r, ρ !! y = Some r ∧ q = hp y r ∧ r_cells r !! i = Some (Some v) ∧ i < r_siz r
  end.
Proof. intros H k v Hk. apply (H k (Some v)). by rewrite list_lookup_fmap, Hk. Qed.

(** the reallocating path of append, insert and replace *)
Lemma grow_run w ρ x s l i j from cs : Rep w ρ → ρ !! x = Some s → holds s l → i ≤ j ≤ length l →
  src_ok ρ from (Some <$> cs) → roomy (length l - (j - i) + length cs) →
  run_to (t <- temp_name ;;
          storage_new t (length l - (j - i) + length cs) ;;;
          on_exn (e <- str_data t ;; copy_from from (padd e i) (length cs)) (storage_dtor t) ;;;
          d <- str_data x ;; e <- str_data t ;;
          copy_n d i e ;;;
          copy_n (padd d j) (length l - j) (padd e (i + length cs)) ;;;
          set_size t (length l - (j - i) + length cs) ;;;
          commit x t) w
    (λ _ w', sets w ρ x (take i l ++ cs ++ drop j l) w')
    (λ e w', undone w ρ (length l - (j - i) + length cs) e w').
Proof.
  intros H Hx Hl Hij Hsrc Hr. set (N := length l - (j - i) + length cs) in *.
  destruct (temp_name_eq w ρ H) as (t & Et & Ht). eapply run_to_bind_ok; [exact Et|].
  assert (Hxt : x ≠ t) by congruence.
  apply run_to_bind. eapply run_to_mono; [by apply (storage_new_run w ρ t N Hcfg)|..].
  2:{ intros e w1 (H1 & _ & Hf). destruct (refused_excuse _ _ _ _ Hf). by split. }
  intros [] w1 (q & H1 & Hq). destruct Hq as (Hql & Hqn & _ & Hqlt & _ & _).
  pose proof (rep_len _ _ _ _ H1 (lookup_insert _ _ _)) as Hlq.
  pose proof H1 as H1'. rewrite (raw_eta q) in H1'.
  set (c0 := r_cells q) in *.
  apply run_to_bind. apply run_to_on_exn.
  eapply run_to_bind_ok; [by eapply x_data|]. unfold padd at 1. cbn [fst snd]. rewrite Nat.add_0_l.
  eapply run_to_eq.
  { apply (copy_from_eq from cs w1 _ c0 i); [by eapply x_mem|lia|].
    intros k v Hk. apply (src_new w1 ρ t q from (Some <$> cs) i H1 Ht Hsrc). by rewrite list_lookup_fmap, Hk. }
  set (c1 := write_at i (Some <$> cs) c0).
  assert (Hlc1 : length c1 = length c0) by (unfold c1; apply write_at_length; rewrite fmap_length; lia).
  pose proof (x_write _ _ _ _ _ _ c1 H1' Hlc1) as H2. set (w2 := mins (hp t q) c1 w1) in *.
  assert (Hx2 : <[t:=Raw (r_home q) (r_siz q) c1]> ρ !! x = Some s) by by rewrite lookup_insert_ne.
  assert (Hne : hp x s ≠ hp t q).
  { intros E. apply Hxt. eapply (rep_inj _ _ H2); [exact Hx2|by rewrite lookup_insert|exact E]. }
  eapply run_to_bind_ok; [by eapply str_data_eq|]. eapply run_to_bind_ok; [by eapply x_data|].
  assert (Hti : length (take i l) = i) by (rewrite take_length; lia).
  rewrite <-Hti at 1. eapply run_to_bind_ok.
  { eapply (copy_n_eq (take i l) w2 _ (r_cells s) 0 _ c1 0); [by eapply rep_cells| |by eapply x_mem|lia|done].
    intros k v Hk. apply lookup_take_Some in Hk as [Hk _]. rewrite Nat.add_0_l. by eapply holds_lookup. }
  set (c2 := write_at 0 (Some <$> take i l) c1).
  assert (Hlc2 : length c2 = length c1) by (unfold c2; apply write_at_length; rewrite fmap_length; lia).
  pose proof (x_write _ _ _ _ _ _ c2 H2 Hlc2) as H3. set (w3 := mins (hp t q) c2 w2) in *.
  assert (Hx3 : <[t:=Raw (r_home q) (r_siz q) c2]> ρ !! x = Some s) by by rewrite lookup_insert_ne.
  unfold padd. cbn [fst snd]. rewrite !Nat.add_0_l. rewrite <-(drop_length l j).
  eapply run_to_bind_ok.
  { eapply (copy_n_eq (drop j l) w3 _ (r_cells s) j _ c2 (i + length cs)); [by eapply rep_cells| |by eapply x_mem| |done].
    - intros k v Hk. rewrite lookup_drop in Hk. by eapply holds_lookup.
    - rewrite drop_length. lia. }
  set (c3 := write_at (i + length cs) (Some <$> drop j l) c2).
  assert (Hlc3 : length c3 = length c2).
  { unfold c3. apply write_at_length. rewrite fmap_length, drop_length. lia. }
  pose proof (x_write _ _ _ _ _ _ c3 H3 Hlc3) as H4. set (w4 := mins (hp t q) c3 w3) in *.
  assert (Hlen : length (take i l ++ cs ++ drop j l) = N).
  { rewrite !app_length, drop_length, Hti. lia. }
  destruct (x_set w4 ρ t q _ _ N Hcfg H4) as (w5 & E5 & Hs5 & H5); [lia|].
  eapply run_to_bind_ok; [exact E5|].
  assert (Hst : starts c3 (take i l ++ cs ++ drop j l)).
  { intros k v Hk. unfold c3. rewrite write_at_lookup by (rewrite fmap_length, drop_length; lia).
    rewrite fmap_length, drop_length. pose proof (lookup_lt_Some _ _ _ Hk) as Hkl.
    destruct (decide (k < i)).
    { rewrite decide_False by lia. rewrite lookup_app_l in Hk by lia.
      unfold c2. rewrite write_at_lookup by (rewrite fmap_length; lia). rewrite fmap_length, decide_True by lia.
      by rewrite Nat.sub_0_r, list_lookup_fmap, Hk. }
    rewrite lookup_app_r in Hk by lia. rewrite Hti in Hk.
    destruct (decide (k < i + length cs)).
    { rewrite decide_False by lia. rewrite lookup_app_l in Hk by lia.
      unfold c2. rewrite write_at_lookup by (rewrite fmap_length; lia). rewrite fmap_length, decide_False by lia.
      unfold c1. rewrite write_at_lookup by (rewrite fmap_length; lia). rewrite fmap_length, decide_True by lia.
      by rewrite list_lookup_fmap, Hk. }
    rewrite decide_True by lia. rewrite lookup_app_r in Hk by lia.
    rewrite list_lookup_fmap. replace (k - (i + length cs)) with (k - i - length cs) by lia. by rewrite Hk. }
  rewrite <-Hlen in H5.
  destruct (commit_eq w5 ρ x t s _ _ H5 Ht Hx (holds_set _ _ _ Hst ltac:(lia)) Hcfg) as (w6 & r & E6 & Hs6 & H6 & Hl6 & _).
  eapply run_to_eq; [exact E6|]. exists r. sp; [done|done|].
  eapply later_trans; [done|]. apply same_later. eapply same_trans; [|done]. exact Hs5.
Qed.

(** append(first, last) *)
Lemma append_range_run w ρ x s l rg from cs : Rep w ρ → ρ !! x = Some s → holds s l →
  bind_range rg w = Ok (from, length cs) w → src_ok ρ from (Some <$> cs) → roomy (length l + length cs) →
  run_to (str_append_range x rg) w
    (λ _ w', mods w ρ x s (length l + length cs) (l ++ cs) w')
    (λ e w', fails w ρ s (length l + length cs) (length l + length cs) e w').
Proof.
  intros H Hx Hl Hb Hsrc Hr. unfold str_append_range.
  eapply run_to_bind_ok; [exact Hb|]. cbn [fst snd].
  eapply run_to_bind_ok; [by eapply str_size_eq|]. eapply run_to_bind_ok; [by eapply str_capacity_eq|].
  pose proof (holds_cap _ _ Hl) as Hcl. pose proof (rep_len _ _ _ _ H Hx) as Hlr. pose proof (proj1 Hl) as Hsz.
  rewrite Hsz. rewrite (roomy_wadd Hcfg (length l)) by done. rewrite (roomy_wadd Hcfg (length cs)) by (by rewrite Nat.add_comm).
  destruct (Nat.leb_spec (length cs + length l) (cap s)) as [Hle|Hgt].
  - eapply run_to_bind_ok; [by eapply str_data_eq|]. unfold padd. cbn [fst snd]. rewrite Nat.add_0_l.
    eapply run_to_bind_ok.
    { apply (copy_from_eq from cs w _ (r_cells s) (length l)); [by eapply rep_cells|lia|].
      intros k v Hk. rewrite <-Hsz. apply (src_own w ρ x s from (Some <$> cs) H Hx Hsrc). by rewrite list_lookup_fmap, Hk. }
    set (c1 := write_at (length l) (Some <$> cs) (r_cells s)).
    assert (Hlc1 : length c1 = length (r_cells s)) by (unfold c1; apply write_at_length; rewrite fmap_length; lia).
    pose proof (x_write _ _ _ _ _ _ c1 (rep_eta _ _ _ _ H Hx) Hlc1) as H1.
    destruct (x_set _ ρ x s _ _ (length l + length cs) Hcfg H1) as (w2 & E2 & Hs2 & H2); [lia|].
    eapply run_to_eq; [exact E2|]. eexists. rewrite <-app_length in H2. sp; [exact H2| |by apply same_later|].
    + apply holds_set; [|rewrite app_length; lia]. apply starts_append; [by apply holds_start|lia].
    + intros _. split; [|done]. split; [done|]. unfold cap. cbn [r_cells]. by rewrite insert_length, Hlc1.
  - pose proof (grow_run w ρ x s l (length l) (length l) from cs H Hx Hl ltac:(lia) Hsrc) as Hg.
    rewrite Nat.sub_diag, Nat.sub_0_r in Hg. specialize (Hg Hr).
    rewrite firstn_all, drop_all, app_nil_r in Hg.
    eapply run_to_mono with (Q := λ _ w', sets w ρ x (l ++ cs) w') (E := λ e w', undone w ρ (length l + length cs) e w').
    + unfold run_to in Hg |- *. erewrite bind_ext; [exact Hg|]. intros t w1. do 5 (apply bind_ext; intros ? ?). done.
    + intros [] w' (r & H1 & Hl1 & Hlt). exists r. sp; [done|done|done|lia].
    + intros e w' (H1 & Hlt & Hex). unfold fails. sp; [done|done|lia|done].
Qed.

(** assign(first, last) *)
Lemma assign_range_run w ρ x s l rg from cs : Rep w ρ → ρ !! x = Some s → holds s l →
  bind_range rg w = Ok (from, length cs) w → src_ok ρ from (Some <$> cs) → length cs ≤ ptrdiff_max →
  run_to (str_assign_range x rg) w
    (λ _ w', mods w ρ x s (length l + length cs) cs w')
    (λ e w', fails w ρ s (length l + length cs) (length cs) e w').
Proof.
  intros H Hx Hl Hb Hsrc Hr. unfold str_assign_range.
  eapply run_to_bind_ok; [exact Hb|]. cbn [fst snd].
  eapply run_to_bind_ok; [by eapply str_size_eq|]. eapply run_to_bind_ok; [by eapply str_capacity_eq|].
  pose proof (holds_cap _ _ Hl) as Hcl. pose proof (rep_len _ _ _ _ H Hx) as Hlr. pose proof (proj1 Hl) as Hsz.
  pose proof (rep_cap Hcfg _ _ _ _ H Hx) as [_ Hcm].
  rewrite Hsz. rewrite (wadd_small (length cs)).
  2:{ destruct Hcfg as (_ & _ & _ & Hw & _). pose proof (ptrdiff_half Hw). lia. }
  destruct (Nat.leb_spec (length cs + length l) (cap s)) as [Hle|Hgt].
  - eapply run_to_bind_ok; [by eapply str_data_eq|]. unfold padd. cbn [fst snd]. rewrite Nat.add_0_l.
    eapply run_to_bind_ok.
    { apply (copy_from_eq from cs w _ (r_cells s) (length l)); [by eapply rep_cells|lia|].
      intros k v Hk. rewrite <-Hsz. apply (src_own w ρ x s from (Some <$> cs) H Hx Hsrc). by rewrite list_lookup_fmap, Hk. }
    set (c1 := write_at (length l) (Some <$> cs) (r_cells s)).
    assert (Hlc1 : length c1 = length (r_cells s)) by (unfold c1; apply write_at_length; rewrite fmap_length; lia).
    pose proof (x_write _ _ _ _ _ _ c1 (rep_eta _ _ _ _ H Hx) Hlc1) as H1. set (w1 := mins (hp x s) c1 w) in *.
    assert (Hst : starts c1 (l ++ cs)) by (apply starts_append; [by apply holds_start|lia]).
    pose proof (starts_eq _ _ Hst) as Ec1. set (B := drop (length (l ++ cs)) c1) in *.
    eapply run_to_bind_ok.
    { apply (rotate_eq w1 _ [] l cs B 0); [done|done|done|]. cbn [app]. rewrite <-Ec1. by eapply x_mem. }
    cbn [app]. set (c2 := (Some <$> cs ++ l) ++ B).
    assert (Hlc2 : length c2 = length c1).
    { rewrite Ec1. unfold c2. rewrite !app_length, !fmap_length, !app_length. lia. }
    pose proof (x_write _ _ _ _ _ _ c2 H1 Hlc2) as H2.
    destruct (x_set _ ρ x s _ _ (length cs) Hcfg H2) as (w3 & E3 & Hs3 & H3); [lia|].
    eapply run_to_eq; [exact E3|]. eexists. sp; [exact H3| |by apply same_later|].
    + apply holds_set; [|lia]. eapply starts_app_inv. apply starts_app.
    + intros _. split; [|done]. split; [done|]. unfold cap. cbn [r_cells]. by rewrite insert_length, Hlc2, Hlc1.
  - destruct (temp_name_eq w ρ H) as (t & Et & Ht). eapply run_to_bind_ok; [exact Et|].
    apply run_to_bind. rewrite <-(fmap_length Some cs) at 1.
    eapply run_to_mono; [eapply (new_from_run Hcfg); [done..|by apply (small_roomy Hcfg); rewrite fmap_length; lia]|..].
    + intros [] w1 (cs' & q & Ev & H1 & Hq & Hlt). rewrite values_fmap in Ev. injection Ev as <-.
      destruct (commit_eq w1 ρ x t s _ _ H1 Ht Hx Hq Hcfg) as (w2 & r & E2 & Hs2 & H2 & Hl2 & _).
      eapply run_to_eq; [exact E2|]. exists r. sp; [done|done| |lia].
      eapply later_trans; [done|by apply same_later].
    + intros e w1 [(_ & Ev & _)|(H1 & Hlt & Hex)]; [by rewrite values_fmap in Ev|].
      rewrite fmap_length in Hex. unfold fails. sp; [done|done|lia|done].
Qed.

(** insert(pos, first, last) *)
Lemma insert_range_run w ρ x s l rg from cs i : Rep w ρ → ρ !! x = Some s → holds s l → i ≤ length l →
  bind_range rg w = Ok (from, length cs) w → src_ok ρ from (Some <$> cs) → roomy (length l + length cs) →
  run_to (str_insert_range x i rg) w
    (λ a w', a = i ∧ mods w ρ x s (length l + length cs) (take i l ++ cs ++ drop i l) w')
    (λ e w', fails w ρ s (length l + length cs) (length l + length cs) e w').
Proof.
  intros H Hx Hl Hi Hb Hsrc Hr. unfold str_insert_range.
  eapply run_to_bind_ok; [exact Hb|]. cbn [fst snd].
  eapply run_to_bind_ok; [by eapply str_size_eq|]. eapply run_to_bind_ok; [by eapply str_capacity_eq|].
  pose proof (holds_cap _ _ Hl) as Hcl. pose proof (rep_len _ _ _ _ H Hx) as Hlr. pose proof (proj1 Hl) as Hsz.
  rewrite Hsz. rewrite (roomy_wadd Hcfg (length l)) by done. rewrite (roomy_wadd Hcfg (length cs)) by (by rewrite Nat.add_comm).
  apply run_to_bind.
  eapply run_to_mono with (Q := λ _ w', mods w ρ x s (length l + length cs) (take i l ++ cs ++ drop i l) w');
    [|by intros [] w' Hm; apply run_to_ret|intros e w' Hf; exact Hf].
  destruct (Nat.leb_spec (length cs + length l) (cap s)) as [Hle|Hgt].
  - eapply run_to_bind_ok; [by eapply str_data_eq|]. unfold padd. cbn [fst snd]. rewrite Nat.add_0_l.
    eapply run_to_bind_ok.
    { apply (copy_from_eq from cs w _ (r_cells s) (length l)); [by eapply rep_cells|lia|].
      intros k v Hk. rewrite <-Hsz. apply (src_own w ρ x s from (Some <$> cs) H Hx Hsrc). by rewrite list_lookup_fmap, Hk. }
    set (c1 := write_at (length l) (Some <$> cs) (r_cells s)).
    assert (Hlc1 : length c1 = length (r_cells s)) by (unfold c1; apply write_at_length; rewrite fmap_length; lia).
    pose proof (x_write _ _ _ _ _ _ c1 (rep_eta _ _ _ _ H Hx) Hlc1) as H1. set (w1 := mins (hp x s) c1 w) in *.
    assert (Hst : starts c1 (l ++ cs)) by (apply starts_append; [by apply holds_start|lia]).
    pose proof (starts_eq _ _ Hst) as Ec1. set (B := drop (length (l ++ cs)) c1) in *.
    assert (Ec1' : c1 = (Some <$> take i l) ++ (Some <$> (drop i l ++ cs)) ++ B).
    { rewrite Ec1 at 1. rewrite app_assoc, <-fmap_app, app_assoc, take_drop. done. }
    eapply run_to_bind_ok.
    { apply (rotate_eq w1 _ (Some <$> take i l) (drop i l) cs B); rewrite ?fmap_length, ?take_length, ?drop_length; [lia..|].
      rewrite <-Ec1'. by eapply x_mem. }
    set (c2 := (Some <$> take i l) ++ (Some <$> cs ++ drop i l) ++ B).
    assert (Hlc2 : length c2 = length c1).
    { rewrite Ec1'. unfold c2. rewrite !app_length, !fmap_length, !app_length. lia. }
    assert (Hlen : length (take i l ++ cs ++ drop i l) = length l + length cs).
    { rewrite !app_length, take_length, drop_length. lia. }
    pose proof (x_write _ _ _ _ _ _ c2 H1 Hlc2) as H2. rewrite <-Hlen at 1.
    destruct (x_set _ ρ x s _ _ (length (take i l ++ cs ++ drop i l)) Hcfg H2) as (w3 & E3 & Hs3 & H3); [lia|].
    eapply run_to_eq; [exact E3|]. eexists. sp; [exact H3| |by apply same_later|].
    + apply holds_set; [|lia]. unfold c2. rewrite app_assoc, <-fmap_app. apply starts_app.
    + intros _. split; [|done]. split; [done|]. unfold cap. cbn [r_cells]. by rewrite insert_length, Hlc2, Hlc1.
  - pose proof (grow_run w ρ x s l i i from cs H Hx Hl ltac:(lia) Hsrc) as Hg.
    rewrite Nat.sub_diag, Nat.sub_0_r in Hg. specialize (Hg Hr).
    eapply run_to_mono; [exact Hg|..].
    + intros [] w' (r & H1 & Hl1 & Hlt). exists r. sp; [done|done|done|lia].
    + intros e w' (H1 & Hlt & Hex). unfold fails. sp; [done|done|lia|done].
Qed.

(** replace(from, to, first, last) *)
Lemma replace_range_run w ρ x s l rg from cs i j : Rep w ρ → ρ !! x = Some s → holds s l → i ≤ j ≤ length l →
  bind_range rg w = Ok (from, length cs) w → src_ok ρ from (Some <$> cs) → roomy (length l + length cs) →
  run_to (str_replace_range x i j rg) w
    (λ _ w', mods w ρ x s (length l + length cs) (take i l ++ cs ++ drop j l) w')
    (λ e w', fails w ρ s (length l + length cs) (length l - (j - i) + length cs) e w').
Proof.
  intros H Hx Hl Hi Hb Hsrc Hr. unfold str_replace_range.
  eapply run_to_bind_ok; [exact Hb|]. cbn [fst snd].
  eapply run_to_bind_ok; [by eapply str_size_eq|]. eapply run_to_bind_ok; [by eapply str_capacity_eq|].
  pose proof (holds_cap _ _ Hl) as Hcl. pose proof (rep_len _ _ _ _ H Hx) as Hlr. pose proof (proj1 Hl) as Hsz.
  assert (Hr' : roomy (length l - (j - i) + length cs)) by (unfold roomy in *; lia).
  rewrite Hsz. rewrite (roomy_wadd Hcfg (length l)) by done. rewrite (roomy_wadd Hcfg (length cs)) by (by rewrite Nat.add_comm).
  rewrite (roomy_wadd Hcfg (length l - (j - i))) by done.
  destruct (Nat.leb_spec (length cs + length l) (cap s)) as [Hle|Hgt].
  - eapply run_to_bind_ok; [by eapply str_data_eq|]. unfold padd. cbn [fst snd]. rewrite Nat.add_0_l.
    eapply run_to_bind_ok.
    { apply (copy_from_eq from cs w _ (r_cells s) (length l)); [by eapply rep_cells|lia|].
      intros k v Hk. rewrite <-Hsz. apply (src_own w ρ x s from (Some <$> cs) H Hx Hsrc). by rewrite list_lookup_fmap, Hk. }
    set (c1 := write_at (length l) (Some <$> cs) (r_cells s)).
    assert (Hlc1 : length c1 = length (r_cells s)) by (unfold c1; apply write_at_length; rewrite fmap_length; lia).
    pose proof (x_write _ _ _ _ _ _ c1 (rep_eta _ _ _ _ H Hx) Hlc1) as H1. set (w1 := mins (hp x s) c1 w) in *.
    assert (Hst : starts c1 (l ++ cs)) by (apply starts_append; [by apply holds_start|lia]).
    destruct (x_set _ ρ x s _ _ (length (l ++ cs)) Hcfg H1) as (w2 & E2 & Hs2 & H2); [rewrite app_length; lia|].
    rewrite <-app_length at 1. eapply run_to_bind_ok; [exact E2|].
    pose proof (holds_set (r_home s) _ _ Hst ltac:(rewrite app_length; lia)) as Hl2.
    destruct (erase_eq Hcfg w2 _ x _ (l ++ cs) i j H2 (lookup_insert _ _ _) Hl2) as (w3 & E3 & Hs3 & r3 & H3 & Hl3 & Hk3);
      [rewrite app_length; lia|].
    rewrite insert_insert in H3. eapply run_to_bind_ok; [exact E3|].
    eapply run_to_bind_ok; [eapply (str_size_eq _ _ x r3); [exact H3|by rewrite lookup_insert]|].
    rewrite take_app_le in Hl3 by lia. rewrite drop_app_le in Hl3 by lia.
    destruct Hk3 as [Hh3 Hc3]. cbn [r_home] in Hh3.
    pose proof (rep_cells _ _ _ _ H3 (lookup_insert _ _ _)) as Hm3.
    assert (Hp3 : hp x r3 = hp x s) by (unfold hp; by rewrite Hh3). rewrite Hp3 in Hm3.
    rewrite (proj1 Hl3).
    pose proof (starts_eq _ _ (proj2 (proj1 (holds_starts _ _) Hl3))) as Ec3.
    set (B := drop _ (r_cells r3)) in Ec3.
    assert (Ec3' : r_cells r3 = (Some <$> take i l) ++ (Some <$> (drop j l ++ cs)) ++ Some NUL :: B).
    { rewrite Ec3 at 1. rewrite !fmap_app, <-!app_assoc. done. }
    eapply run_to_eq.
    { eapply (rotate_eq w3 _ (Some <$> take i l) (drop j l) cs (Some NUL :: B)).
      - rewrite fmap_length, take_length. lia.
      - rewrite fmap_length, take_length, drop_length. lia.
      - rewrite !app_length, fmap_length. lia.
      - rewrite <-Ec3'. exact Hm3. }
    set (c4 := (Some <$> take i l) ++ (Some <$> cs ++ drop j l) ++ Some NUL :: B).
    assert (Hlc4 : length c4 = length (r_cells r3)).
    { rewrite Ec3'. unfold c4. rewrite !app_length, !fmap_length, !app_length. lia. }
    rewrite <-Hp3. rewrite (raw_eta r3) in H3. eexists. sp; [eapply x_write; [exact H3|exact Hlc4]| | |].
    + apply holds_starts. cbn [r_siz r_cells]. rewrite (proj1 Hl3). split; [rewrite !app_length; lia|].
      unfold c4. rewrite app_assoc, <-fmap_app.
      assert ((Some <$> take i l ++ cs ++ drop j l) ++ Some NUL :: B = (Some <$> ((take i l ++ cs ++ drop j l) ++ [NUL])) ++ B) as ->.
      { rewrite (fmap_app _ (take i l ++ cs ++ drop j l)). by rewrite <-app_assoc. }
      apply starts_app.
    + apply same_later. eapply same_trans; [exact Hs2|]. exact Hs3.
    + intros _. split; [split; [done|]|eapply same_trans; [exact Hs2|exact Hs3]].
      unfold cap in *. cbn [r_cells] in *. rewrite Hlc4, Hc3, insert_length, Hlc1. done.
  - eapply run_to_mono; [by apply (grow_run w ρ x s l i j from cs)|..].
    + intros [] w' (r & H1 & Hl1 & Hlt). exists r. sp; [done|done|done|lia].
    + intros e w' (H1 & Hlt & Hex). unfold fails. sp; [done|done|lia|done].
Qed.

(** ** Input iterators *)
Lemma with_input_run {A} w ρ x s vs (body : nat → M world A) (a : A) l' d : Rep w ρ → ρ !! x = Some s →
  length vs ≤ d →
  (∀ t q cs w1, x ≠ t → ρ !! t = None → values vs = Some cs → Rep w1 (<[t:=q]> ρ) → holds q cs → later w w1 →
     run_to (body t) w1
       (λ a' w', a' = a ∧ ∃ r q', Rep w' (<[t:=q']> (<[x:=r]> ρ)) ∧ holds r (l' cs) ∧ later w1 w')
       (λ e w', undone w1 (<[t:=q]> ρ) d e w')) →
  run_to (with_input vs body) w
    (λ a' w', a' = a ∧ ∃ cs, values vs = Some cs ∧ sets w ρ x (l' cs) w')
    (λ e w', (e = ElementThrow ∧ values vs = None ∧ Rep w' ρ ∧ later w w') ∨ undone w ρ d e w').
Proof.
  intros H Hx Hd Hbody. unfold with_input.
  destruct (temp_name_eq w ρ H) as (t & Et & Ht). eapply run_to_bind_ok; [exact Et|].
  assert (Hxt : x ≠ t) by congruence.
  apply run_to_bind. eapply run_to_mono; [by eapply (new_input_run Hcfg)|..].
  2:{ intros e w1 [?|(H1 & Hlt & Hex)]; [by left|right]. split; [done|]. split; [done|].
      eapply excuse_mono; [apply later_refl|apply later_refl|exact Hd|done]. }
  intros [] w1 (cs & q & Ev & H1 & Hq & Hlt).
  apply run_to_bind. apply run_to_on_exn. eapply run_to_mono; [by eapply Hbody|..].
  - intros a' w2 (-> & r & q' & H2 & Hl2 & Hlt2).
    destruct (dtor_eq w2 _ t q' H2 (lookup_insert _ _ _)) as (w3 & E3 & Hs3 & H3).
    eapply run_to_bind_ok; [exact E3|]. apply run_to_ret. split; [done|]. exists cs. split; [done|]. exists r.
    rewrite delete_insert in H3 by (by rewrite lookup_insert_ne). sp; [done|done|].
    eapply later_trans; [done|]. eapply later_trans; [done|by apply same_later].
  - intros e w2 (H2 & Hlt2 & Hex).
    destruct (dtor_eq w2 _ t q H2 (lookup_insert _ _ _)) as (w3 & E3 & Hs3 & H3).
    eapply run_to_eq; [exact E3|]. right. rewrite delete_insert in H3 by done. split; [done|]. split.
    + eapply later_trans; [done|]. eapply later_trans; [done|by apply same_later].
    + eapply excuse_mono; [exact Hlt|by apply same_later|reflexivity|done].
Qed.
Lemma temp_countable w ρ x s t q l cs : Rep w (<[t:=q]> ρ) → x ≠ t → ρ !! x = Some s → holds s l → holds q cs →
  countable (length l + length cs).
Proof.
  intros H Hxt Hx Hl Hq. pose proof (holds_cap _ _ Hl). pose proof (holds_cap _ _ Hq).
  pose proof (rep_cap Hcfg _ _ t q H (lookup_insert _ _ _)).
  pose proof (rep_cap Hcfg _ _ x s H ltac:(by rewrite lookup_insert_ne)).
  unfold countable. destruct Hcfg as (_ & _ & _ & Hw & _). pose proof (ptrdiff_half Hw). lia.
Qed.
Lemma append_input_run w ρ x s l vs : Rep w ρ → ρ !! x = Some s → holds s l →
  run_to (str_append_input x vs) w
    (λ _ w', ∃ cs, values vs = Some cs ∧ sets w ρ x (l ++ cs) w')
    (λ e w', (e = ElementThrow ∧ values vs = None ∧ Rep w' ρ ∧ later w w') ∨ undone w ρ (length l + length vs) e w').
Proof.
  intros H Hx Hl. unfold str_append_input.
  eapply run_to_mono; [eapply (with_input_run w ρ x s vs _ tt (λ cs, l ++ cs) (length l + length vs)); [done|done|lia|]| |];
    [|by intros [] w' [_ ?]|by intros e w' ?].
  intros t q cs w1 Hxt Ht Ev H1 Hq Hlt.
  assert (Hx1 : <[t:=q]> ρ !! x = Some s) by by rewrite lookup_insert_ne.
  eapply run_to_bind_ok; [eapply (str_size_eq _ _ t q); [done|by rewrite lookup_insert]|]. rewrite (proj1 Hq).
  eapply run_to_mono.
  { eapply (append_na_run Hcfg w1 _ x s l (fill_str x t) cs H1 Hx1 Hl);
      [eapply fills_str; [done|by rewrite lookup_insert|done]|by eapply temp_countable]. }
  - intros [] w2 (r & H2 & Hl2 & Hlt2 & _). split; [done|]. exists r, q. rewrite insert_commute by done. done.
  - intros e w2 Hf. apply fails_undone in Hf. by rewrite (values_length _ _ Ev) in Hf.
Qed.
Lemma insert_input_run w ρ x s l i vs : Rep w ρ → ρ !! x = Some s → holds s l → i ≤ length l →
  run_to (str_insert_input x i vs) w
    (λ a w', a = i ∧ ∃ cs, values vs = Some cs ∧ sets w ρ x (take i l ++ cs ++ drop i l) w')
    (λ e w', (e = ElementThrow ∧ values vs = None ∧ Rep w' ρ ∧ later w w') ∨ undone w ρ (length l + length vs) e w').
Proof.
  intros H Hx Hl Hi. unfold str_insert_input.
  eapply (with_input_run w ρ x s vs _ i (λ cs, take i l ++ cs ++ drop i l)); [done|done|lia|].
  intros t q cs w1 Hxt Ht Ev H1 Hq Hlt.
  assert (Hx1 : <[t:=q]> ρ !! x = Some s) by by rewrite lookup_insert_ne.
  eapply run_to_bind_ok; [eapply (str_size_eq _ _ t q); [done|by rewrite lookup_insert]|]. rewrite (proj1 Hq).
  eapply run_to_mono.
  { eapply (insert_na_run Hcfg w1 _ x s l i (fill_str x t) cs H1 Hx1 Hl);
      [eapply fills_str; [done|by rewrite lookup_insert|done]|done|by eapply temp_countable]. }
  - intros a w2 (-> & r & H2 & Hl2 & Hlt2 & _). split; [done|]. exists r, q. rewrite insert_commute by done. done.
  - intros e w2 Hf. apply fails_undone in Hf. by rewrite (values_length _ _ Ev) in Hf.
Qed.
Lemma replace_input_run w ρ x s l i j vs : Rep w ρ → ρ !! x = Some s → holds s l → i ≤ j ≤ length l →
  run_to (str_replace_input x i j vs) w
    (λ _ w', ∃ cs, values vs = Some cs ∧ sets w ρ x (take i l ++ cs ++ drop j l) w')
    (λ e w', (e = ElementThrow ∧ values vs = None ∧ Rep w' ρ ∧ later w w') ∨
             undone w ρ (length vs `max` (length l - (j - i) + length vs)) e w').
Proof.
  intros H Hx Hl Hi. unfold str_replace_input.
  eapply run_to_mono; [eapply (with_input_run w ρ x s vs _ tt (λ cs, take i l ++ cs ++ drop j l)
     (length vs `max` (length l - (j - i) + length vs))); [done|done|lia|]| |];
    [|by intros [] w' [_ ?]|by intros e w' ?].
  intros t q cs w1 Hxt Ht Ev H1 Hq Hlt.
  assert (Hx1 : <[t:=q]> ρ !! x = Some s) by by rewrite lookup_insert_ne.
  eapply run_to_bind_ok; [eapply (str_size_eq _ _ t q); [done|by rewrite lookup_insert]|]. rewrite (proj1 Hq).
  pose proof (temp_countable _ _ _ _ _ _ _ _ H1 Hxt Hx Hl Hq) as Hcn.
  eapply run_to_mono.
  { eapply (replace_na_run Hcfg w1 _ x s l i j (fill_str x t) cs H1 Hx1 Hl);
      [eapply fills_str; [done|by rewrite lookup_insert|done]|done|unfold countable in *; lia]. }
  - intros [] w2 (r & H2 & Hl2 & Hlt2 & _). split; [done|]. exists r, q. rewrite insert_commute by done. done.
  - intros e w2 Hf. apply fails_undone in Hf. rewrite (values_length _ _ Ev) in Hf. destruct Hf as (? & ? & ?).
    split; [done|]. split; [done|]. eapply excuse_mono; [apply later_refl|apply later_refl| |done]. lia.
Qed.
Lemma assign_input_run w ρ x s l vs : Rep w ρ → ρ !! x = Some s → holds s l →
  run_to (str_assign_input x vs) w
    (λ _ w', ∃ cs, values vs = Some cs ∧ sets w ρ x cs w')
    (λ e w', (e = ElementThrow ∧ values vs = None ∧ Rep w' ρ ∧ later w w') ∨ undone w ρ (length vs) e w').
Proof.
  intros H Hx Hl. unfold str_assign_input.
  eapply run_to_mono; [eapply (with_input_run w ρ x s vs _ tt (λ cs, cs) (length vs)); [done|done|lia|]| |];
    [|by intros [] w' [_ ?]|by intros e w' ?].
  intros t q cs w1 Hxt Ht Ev H1 Hq Hlt.
  destruct (move_assign_eq w1 _ x t q s cs H1 Hxt) as (w2 & r & E2 & Hs2 & H2 & Hl2 & _);
    [by rewrite lookup_insert_ne|by rewrite lookup_insert|done|done|].
  eapply run_to_eq; [exact E2|]. split; [done|]. exists r, (moved_raw q).
  rewrite (insert_commute ρ) in H2 by done. rewrite insert_insert in H2. sp; [done|done|by apply same_later].
Qed.
End proofs.
