(** One call, and whole histories of calls on strings, against the specification. *)
From stdpp Require Import prelude gmap.
From Coq Require Import ZArith Lia.
From Verif Require Import Cpp StringModel StringSpec StringMem StringRep StringOps StringOps2 StringOps3.
Local Open Scope nat_scope.

Section proofs.
Context `{C : StrCfg} (Hcfg : cfg_ok).
Notation state := (gmap nat (list char)).
Notation raws := (gmap nat raw).

Definition rel (ρ : raws) (m : state) : Prop :=
  ∀ x, match m !! x with Some l => ∃ s, ρ !! x = Some s ∧ holds s l | None => ρ !! x = None end.
Definition wf (w : world) (m : state) : Prop := ∃ ρ, Rep w ρ ∧ rel ρ m.

Lemma rel_get ρ m x l : rel ρ m → m !! x = Some l → ∃ s, ρ !! x = Some s ∧ holds s l.
Proof. intros H Hx. specialize (H x). by rewrite Hx in H. Qed.
Lemma rel_none ρ m x : rel ρ m → m !! x = None → ρ !! x = None.
Proof. intros H Hx. specialize (H x). by rewrite Hx in H. Qed.
Lemma rel_insert ρ m x r l : rel ρ m → holds r l → rel (<[x:=r]> ρ) (<[x:=l]> m).
Proof.
  intros H Hr y. destruct (decide (x = y)) as [->|Hne].
  - rewrite !lookup_insert. eauto.
  - rewrite !lookup_insert_ne by done. apply H.
Qed.
Lemma rel_delete ρ m x : rel ρ m → rel (delete x ρ) (delete x m).
Proof.
  intros H y. destruct (decide (x = y)) as [->|Hne].
  - by rewrite !lookup_delete.
  - rewrite !lookup_delete_ne by done. apply H.
Qed.
Lemma inline_eq w ρ x s : Rep w ρ → ρ !! x = Some s → inline w x = if r_home s then false else true.
Proof. intros H Hx. unfold inline. rewrite (rep_obj _ _ _ _ H Hx). unfold conc. by destruct (r_home s). Qed.
Lemma slen_eq (m : state) x l : m !! x = Some l → slen m x = length l.
Proof. unfold slen. by intros ->. Qed.

(** the call returned *)
Definition good (o : sop) (w : world) (m : state) (ρ : raws) (r : sobs) (w' : world) : Prop :=
  ∃ m' ρ', sstep (inline w) o m = Done r m' ∧ Rep w' ρ' ∧ rel ρ' m' ∧ later w w' ∧
    (∀ z, z ∉ touches o → ρ' !! z = ρ !! z) ∧
    (∀ x n s, needs o m = Some (x, n) → ρ !! x = Some s → n ≤ cap s → (∃ r, ρ' !! x = Some r ∧ kept s r) ∧ same w w') ∧
    (acquires o = false → same w w').
(** the call threw *)
Definition bad (o : sop) (w : world) (m : state) (ρ : raws) (e : exn) (w' : world) : Prop :=
  Rep w' ρ ∧ later w w' ∧ (sstep (inline w) o m = Throws e ∨ explained o m w w' e) ∧
  (∀ x n s, needs o m = Some (x, n) → ρ !! x = Some s → cap s < n).

Lemma mods_good o w m ρ x s n l' r w' : rel ρ m → ρ !! x = Some s → mods w ρ x s n l' w' →
  sstep (inline w) o m = Done r (<[x:=l']> m) → touches o = [x] → needs o m = Some (x, n) ∨ needs o m = None →
  (acquires o = false → n = 0) → good o w m ρ r w'.
Proof.
  intros Hrel Hx (r1 & H1 & Hl1 & Hlt & Hk) Hd Ht Hn Ha. exists (<[x:=l']> m), (<[x:=r1]> ρ).
  sp; [done|done|by apply rel_insert|done| | |intros Hf; rewrite (Ha Hf) in Hk; apply Hk; lia].
  - intros z Hz. rewrite Ht in Hz. rewrite lookup_insert_ne; [done|set_solver].
  - intros x' n' s' Hn' Hx' Hle. destruct Hn as [E|E]; rewrite E in Hn'; [|done].
    injection Hn' as <- <-. rewrite Hx in Hx'. injection Hx' as <-. destruct (Hk Hle) as [? ?].
    split; [|done]. exists r1. split; [by rewrite lookup_insert|done].
Qed.
Lemma sets_good o w m ρ x l' r w' : rel ρ m → sets w ρ x l' w' →
  sstep (inline w) o m = Done r (<[x:=l']> m) → touches o = [x] → needs o m = None →
  (acquires o = false → same w w') → good o w m ρ r w'.
Proof.
  intros Hrel (r1 & H1 & Hl1 & Hlt) Hd Ht Hn Ha. exists (<[x:=l']> m), (<[x:=r1]> ρ).
  sp; [done|done|by apply rel_insert|done| | |done].
  - intros z Hz. rewrite Ht in Hz. rewrite lookup_insert_ne; [done|set_solver].
  - intros x' n' s' Hn'. by rewrite Hn in Hn'.
Qed.
(** two strings changed *)
Lemma two_good o w m ρ x y l k r w' a b : rel ρ m → x ≠ y → holds a l → holds b k → same w w' →
  Rep w' (<[y:=b]> (<[x:=a]> ρ)) →
  sstep (inline w) o m = Done r (<[x:=l]> (<[y:=k]> m)) → touches o = [x; y] → needs o m = None → good o w m ρ r w'.
Proof.
  intros Hrel Hxy Ha Hb Hs H1 Hd Ht Hn. do 2 eexists.
  sp; [exact Hd|exact H1| |by apply same_later| | |done].
  - rewrite insert_commute by done. apply rel_insert; [|done]. by apply rel_insert.
  - intros z Hz. rewrite Ht in Hz. rewrite !lookup_insert_ne; [done|set_solver..].
  - intros x' n' s' Hn'. by rewrite Hn in Hn'.
Qed.
(** nothing changed *)
Lemma read_good o w m ρ r : Rep w ρ → rel ρ m →
  sstep (inline w) o m = Done r m → (∀ p, needs o m = Some p → True) → good o w m ρ r w.
Proof.
  intros H Hrel Hd Hn. exists m, ρ. sp; [done|done|done|apply later_refl|done| |done].
  intros x n s _ Hx _. split; [|apply same_refl]. exists s. split; [done|apply kept_refl].
Qed.
Lemma fails_bad o w m ρ x s n e w' : fails w ρ s n (demand o m) e w' → ρ !! x = Some s →
  needs o m = Some (x, n) → acquires o = true → bad o w m ρ e w'.
Proof.
  intros (H1 & Hlt & Hc & Hex) Hx Hn Ha. unfold bad. sp; [done|done| |].
  - right. split; [done|]. by destruct e.
  - intros x' n' s' Hn' Hx'. rewrite Hn in Hn'. injection Hn' as <- <-. rewrite Hx in Hx'. by injection Hx' as <-.
Qed.
Lemma undone_bad o w m ρ e w' : undone w ρ (demand o m) e w' → needs o m = None → acquires o = true → bad o w m ρ e w'.
Proof.
  intros (H1 & Hlt & Hex) Hn Ha. unfold bad. sp; [done|done| |].
  - right. split; [done|]. by destruct e.
  - intros x' n' s' Hn'. by rewrite Hn in Hn'.
Qed.
Lemma throws_bad o w m ρ e w' : Rep w' ρ → later w w' → sstep (inline w) o m = Throws e → needs o m = None →
  bad o w m ρ e w'.
Proof. intros H1 Hlt Ht Hn. unfold bad. sp; [done|done|by left|]. intros x n s E. by rewrite Hn in E. Qed.
Lemma eq_mods w ρ x s l w' : same w w' → (∃ r, Rep w' (<[x:=r]> ρ) ∧ holds r l ∧ kept s r) → mods w ρ x s 0 l w'.
Proof. intros Hs (r & H1 & Hl1 & Hk). exists r. sp; [done|done|by apply same_later|done]. Qed.

Lemma index_eq w ρ x s l i v : Rep w ρ → ρ !! x = Some s → holds s l → (l ++ [NUL]) !! i = Some v →
  str_index x i w = Ok v w.
Proof.
  intros H Hx Hl Hi. unfold str_index. erewrite bind_ok by by eapply str_data_eq.
  unfold padd. cbn [fst snd]. rewrite Nat.add_0_l. eapply rd_cell; [done..|]. by eapply holds_lookup_nul.
Qed.
Lemma set_eq w ρ x s l i v : Rep w ρ → ρ !! x = Some s → holds s l → i < length l →
  ∃ w', str_set x i v w = Ok tt w' ∧ same w w' ∧ ∃ r, Rep w' (<[x:=r]> ρ) ∧ holds r (<[i:=v]> l) ∧ kept s r.
Proof.
  intros H Hx Hl Hi. unfold str_set. erewrite bind_ok by by eapply str_data_eq.
  unfold padd. cbn [fst snd]. rewrite Nat.add_0_l.
  pose proof (holds_cap _ _ Hl). pose proof (rep_len _ _ _ _ H Hx).
  eexists. split; [eapply wr_eq; [by eapply rep_cells|lia]|]. split; [done|].
  eexists. split; [apply (Rep_write _ _ _ _ _ H Hx); by rewrite insert_length|]. split.
  - destruct Hl as [Hsz [rest E]]. split; cbn [r_siz r_cells]; [by rewrite insert_length|].
    exists rest. rewrite E. rewrite insert_app_l by (by rewrite fmap_length). by rewrite list_fmap_insert.
  - split; [done|]. unfold cap. cbn [r_cells]. by rewrite insert_length.
Qed.
Lemma clear_eq w ρ x s l : Rep w ρ → ρ !! x = Some s → holds s l →
  ∃ w', str_clear x w = Ok tt w' ∧ same w w' ∧ ∃ r, Rep w' (<[x:=r]> ρ) ∧ holds r [] ∧ kept s r.
Proof.
  intros H Hx Hl. unfold str_clear, noexcept. erewrite bind_ok by by eapply str_size_eq.
  rewrite (proj1 Hl). destruct (Nat.eqb_spec (length l) 0) as [E|_].
  - destruct l; [|done]. exists w. split; [done|]. split; [done|]. exists s. rewrite insert_id by done. done.
  - destruct (cut_run Hcfg w ρ x s l 0) as (w' & E & Hs & ?); [done..|lia|]. rewrite E. eauto.
Qed.
Lemma pop_back_eq w ρ x s l : Rep w ρ → ρ !! x = Some s → holds s l →
  ∃ w', str_pop_back x w = Ok tt w' ∧ same w w' ∧ ∃ r, Rep w' (<[x:=r]> ρ) ∧ holds r (take (length l - 1) l) ∧ kept s r.
Proof.
  intros H Hx Hl. unfold str_pop_back, noexcept. erewrite bind_ok by by eapply str_size_eq.
  rewrite (proj1 Hl). destruct (cut_run Hcfg w ρ x s l (length l - 1)) as (w' & E & Hs & ?); [done..|lia|].
  rewrite E. eauto.
Qed.

Lemma bind_cs w ρ m rg cs : Rep w ρ → rel ρ m → svalues m rg = Some cs →
  ∃ from, bind_range rg w = Ok (from, length cs) w ∧ src_ok ρ from (Some <$> cs) ∧ length cs = rlen rg ∧ length cs ≤ ptrdiff_max.
Proof.
  intros H Hrel Hv. unfold svalues in Hv. destruct (srange m rg) as [vs|] eqn:Hr; [|done].
  destruct (bind_range_eq Hcfg w ρ m rg vs H (λ y l, rel_get ρ m y l Hrel) Hr) as (from & E & Hsrc & Hl & Hm).
  pose proof (values_Some _ _ Hv) as ->. rewrite fmap_length in *. eauto.
Qed.
Lemma svalues_ext (m : state) l cs : svalues m (RExt (Some <$> l)) = Some cs → cs = l.
Proof.
  unfold svalues. cbn [srange]. destruct (decide _); [|done]. rewrite values_fmap. congruence.
Qed.
Lemma svalues_all (m : state) y l : m !! y = Some l → svalues m (RSub y 0 (length l)) = Some l.
Proof.
  intros Hy. unfold svalues. cbn [srange]. rewrite Hy, decide_True by lia.
  by rewrite values_fmap, drop_0, firstn_all.
Qed.
(** from a bound range to a new string *)
Lemma new_cs w ρ x from cs : Rep w ρ → ρ !! x = None → src_ok ρ from (Some <$> cs) → length cs ≤ ptrdiff_max →
  run_to (str_new_from x (from, length cs)) w (λ _ w', sets w ρ x cs w') (λ e w', undone w ρ (length cs) e w').
Proof.
  intros H Hx Hsrc Hm. rewrite <-(fmap_length Some cs) at 1.
  eapply run_to_mono; [eapply (new_from_run Hcfg); [done..|by apply (small_roomy Hcfg); rewrite fmap_length; lia]|..].
  - intros [] w1 (cs' & q & Ev & H1 & Hq & Hlt). rewrite values_fmap in Ev. injection Ev as <-. by exists q.
  - intros e w1 [(_ & Ev & _)|Hu]; [by rewrite values_fmap in Ev|]. by rewrite fmap_length in Hu.
Qed.

Ltac obs := unfold obs_unit, obs_nat, obs_char, obs_bool; apply run_to_bind.
Ltac got Hx s Hs Hl := let Hrel := match goal with H : rel _ _ |- _ => H end in
  destruct (rel_get _ _ _ _ Hrel Hx) as (s & Hs & Hl).

Lemma exec_run o w m ρ : Rep w ρ → rel ρ m → sstep (inline w) o m ≠ Bad →
  run_to (sexec o) w (good o w m ρ) (bad o w m ρ).
Proof.
  intros H Hrel Hb.
  destruct o as [x|x r|x vs|x y|x y|x n c|x|x l r|x y|x y|x r|x vs|x cs|x n c|x r|x vs|x cs|x n c
                |x i r|x i vs|x i cs|x i n c|x i j r|x i j vs|x i j cs|x i j n c|x i j|x i|x c|x
                |x n|x n|x n c|x|x|x y|z x i|z x i n|z x i|z x i n|x i c|x i|x i|x|x|x i|x|x];
    cbn [sstep] in Hb; unfold snew, supd, sinput, sget in Hb; cbn [sexec].
  - (* SNew *) destruct (m !! x) eqn:Hx; [done|]. pose proof (rel_none _ _ _ Hrel Hx) as Hr.
    obs. apply run_to_noexcept. destruct (default_eq w ρ x H Hr) as (w' & E & Hs & H').
    eapply run_to_eq; [exact E|]. apply run_to_ret. eapply sets_good; [done| |cbn [sstep]; unfold snew; by rewrite Hx|done|done|done].
    exists raw0. sp; [done|apply holds_raw0|by apply same_later].
  - (* SNewRange *) destruct (srange m r) as [vs|] eqn:Hr; [|done]. destruct (m !! x) eqn:Hx; [done|].
    pose proof (rel_none _ _ _ Hrel Hx) as Hxr.
    destruct (bind_range_eq Hcfg w ρ m r vs H (λ y l, rel_get ρ m y l Hrel) Hr) as (from & E & Hsrc & Hlen & Hm).
    obs. unfold str_new_range. eapply run_to_bind_ok; [exact E|].
    eapply run_to_mono; [eapply (new_from_run Hcfg); [done..|by apply (small_roomy Hcfg); lia]|..].
    + intros [] w1 (cs & q & Ev & H1 & Hq & Hlt). apply run_to_ret.
      eapply (sets_good _ _ _ _ x cs); [done|by exists q|cbn [sstep]; by rewrite Hr, Hx, Ev|done|done|done].
    + intros e w1 [(-> & Ev & H1 & Hlt)|Hu].
      * apply throws_bad; [done|done|cbn [sstep]; by rewrite Hr, Hx, Ev|done].
      * apply undone_bad; [|done|done]. cbn [demand]. by rewrite <-Hlen.
  - (* SNewInput *) destruct (m !! x) eqn:Hx; [done|]. pose proof (rel_none _ _ _ Hrel Hx) as Hxr.
    obs. eapply run_to_mono; [by eapply (new_input_run Hcfg)|..].
    + intros [] w1 (cs & q & Ev & H1 & Hq & Hlt). apply run_to_ret.
      eapply (sets_good _ _ _ _ x cs); [done|by exists q|cbn [sstep]; by rewrite Hx, Ev|done|done|done].
    + intros e w1 [(-> & Ev & H1 & Hlt)|Hu].
      * apply throws_bad; [done|done|cbn [sstep]; by rewrite Hx, Ev|done].
      * by apply undone_bad.
  - (* SNewCopy *) destruct (m !! x) eqn:Hx; [done|]. destruct (m !! y) as [l|] eqn:Hy; [|done].
    pose proof (rel_none _ _ _ Hrel Hx) as Hxr. got Hy s Hs Hl.
    obs. unfold str_new_copy, as_view, str_new_range. apply run_to_bind.
    eapply run_to_bind_ok; [by eapply str_size_eq|]. apply run_to_ret. rewrite (proj1 Hl).
    destruct (bind_cs w ρ m _ l H Hrel (svalues_all _ _ _ Hy)) as (from & E & Hsrc & _ & Hm).
    eapply run_to_bind_ok; [exact E|]. eapply run_to_mono; [by apply new_cs|..].
    + intros [] w1 Hset. apply run_to_ret. eapply sets_good; [done|done|cbn [sstep]; unfold snew; by rewrite Hx, Hy|done|done|done].
    + intros e w1 Hu. apply undone_bad; [|done|done]. cbn [demand]. by rewrite (slen_eq _ _ _ Hy).
  - (* SNewMove *) destruct (m !! x) eqn:Hx; [done|]. destruct (m !! y) as [l|] eqn:Hy; [|done].
    pose proof (rel_none _ _ _ Hrel Hx) as Hxr. got Hy s Hs Hl.
    obs. apply run_to_noexcept. destruct (move_new_eq w ρ x y s l H Hxr Hs Hl Hcfg) as (w1 & r & E & Hsm & H1 & Hr & _).
    eapply run_to_eq; [exact E|]. apply run_to_ret.
    eapply (two_good _ _ _ _ x y l); [done|congruence|exact Hr|exact (holds_moved _ _ Hl)|done|exact H1| |done|done].
    cbn [sstep]. rewrite Hx, Hy. unfold smoved. rewrite (inline_eq _ _ _ _ H Hs). by destruct (r_home s).
  - (* SNewFill *) destruct (m !! x) eqn:Hx; [done|]. destruct (decide (roomy n)) as [Hn|] eqn:Ed; [|done].
    pose proof (rel_none _ _ _ Hrel Hx) as Hxr.
    obs. eapply run_to_mono; [by eapply (new_fill_run Hcfg)|..].
    + intros [] w1 Hset. apply run_to_ret.
      eapply (sets_good _ _ _ _ x); [done|exact Hset|cbn [sstep]; unfold snew; by rewrite Hx, Ed|done|done|done].
    + intros e w1 Hu. by apply undone_bad.
  - (* SDestroy *) destruct (m !! x) as [l|] eqn:Hx; [|done]. got Hx s Hs Hl.
    obs. apply run_to_noexcept. destruct (dtor_eq w ρ x s H Hs) as (w1 & E & Hsm & H1).
    eapply run_to_eq; [exact E|]. apply run_to_ret. do 2 eexists. cbn [sstep]. rewrite Hx.
    sp; [reflexivity|exact H1|by apply rel_delete|by apply same_later| |done|done].
    intros z Hz. cbn [touches writes] in Hz. rewrite lookup_delete_ne; [done|set_solver].
  - (* SConcat *) destruct (svalues m l) as [a|] eqn:Ha; [|done]. destruct (svalues m r) as [b|] eqn:Hvb; [|done].
    destruct (m !! x) eqn:Hx; [done|]. destruct (decide _) as [Hn|] eqn:Ed; [|done].
    pose proof (rel_none _ _ _ Hrel Hx) as Hxr.
    obs. eapply run_to_mono; [eapply (concat_run Hcfg w ρ m); [done|done|exact (λ y l, rel_get ρ m y l Hrel)|done..]|..].
    + intros [] w1 Hset. apply run_to_ret.
      eapply (sets_good _ _ _ _ x); [done|exact Hset|cbn [sstep]; unfold snew; by rewrite Ha, Hvb, Hx, Ed|done|done|done].
    + intros e w1 Hu. apply undone_bad; [|done|done]. cbn [demand].
      destruct (bind_cs w ρ m _ _ H Hrel Ha) as (_ & _ & _ & <- & _).
      destruct (bind_cs w ρ m _ _ H Hrel Hvb) as (_ & _ & _ & <- & _). done.
  - (* SCopyAssign *) destruct (m !! y) as [l|] eqn:Hy; [|done]. destruct (m !! x) as [k|] eqn:Hx; [|done].
    got Hy s Hs Hl. got Hx t Ht Hk. obs. unfold str_copy_assign. destruct (decide (x = y)) as [->|Hxy].
    + eapply run_to_bind_ok; [by eapply get_str_eq, rep_obj|]. do 2 apply run_to_ret.
      apply read_good; [done|done| |done]. cbn [sstep]. unfold supd. rewrite Hy. by rewrite insert_id.
    + unfold as_view. apply run_to_bind. eapply run_to_bind_ok; [by eapply str_size_eq|]. apply run_to_ret. rewrite (proj1 Hl).
      destruct (bind_cs w ρ m _ l H Hrel (svalues_all _ _ _ Hy)) as (from & E & Hsrc & _ & Hm).
      eapply run_to_mono; [by eapply (assign_range_run Hcfg w ρ x t k)|..].
      * intros [] w1 Hmod. apply run_to_ret.
        eapply (mods_good _ _ _ _ x t _ l); [done|done|exact Hmod| |done|left|done].
        { cbn [sstep]. unfold supd. by rewrite Hy, Hx. }
        cbn [needs]. by rewrite (slen_eq _ _ _ Hx), (slen_eq _ _ _ Hy).
      * intros e w1 Hf. eapply (fails_bad _ _ _ _ x t); [|done| |done]; cbn [demand needs];
          rewrite (slen_eq _ _ _ Hy); [exact Hf|by rewrite (slen_eq _ _ _ Hx)].
  - (* SMoveAssign *) destruct (m !! x) as [k|] eqn:Hx; [|done]. destruct (m !! y) as [l|] eqn:Hy; [|done].
    got Hy s Hs Hl. got Hx t Ht Hk. obs. apply run_to_noexcept. destruct (decide (x = y)) as [->|Hxy].
    + eapply run_to_eq; [by eapply move_assign_self|]. apply run_to_ret. apply read_good; [done|done| |done].
      cbn [sstep]. rewrite Hy, decide_True by done. done.
    + destruct (move_assign_eq w ρ x y s t l H Hxy Ht Hs Hl Hcfg) as (w1 & r & E & Hsm & H1 & Hr & _).
      eapply run_to_eq; [exact E|]. apply run_to_ret.
      eapply (two_good _ _ _ _ x y l); [done|done|exact Hr|exact (holds_moved _ _ Hl)|done|exact H1| |done|done].
      cbn [sstep]. rewrite Hx, Hy, decide_False by done. unfold smoved. rewrite (inline_eq _ _ _ _ H Hs). by destruct (r_home s).
  - (* SAssignRange *) destruct (m !! x) as [l|] eqn:Hx; [|done]. destruct (svalues m r) as [cs|] eqn:Hv; [|done].
    got Hx s Hs Hl. destruct (bind_cs w ρ m _ cs H Hrel Hv) as (from & E & Hsrc & Hlen & Hm).
    obs. eapply run_to_mono; [by eapply (assign_range_run Hcfg w ρ x s l)|..].
    + intros [] w1 Hmod. apply run_to_ret. eapply (mods_good _ _ _ _ x s _ cs); [done|done|exact Hmod| |done|left|done].
      { cbn [sstep]. unfold supd. by rewrite Hx, Hv. }
      cbn [needs]. by rewrite (slen_eq _ _ _ Hx), Hlen.
    + intros e w1 Hf. eapply (fails_bad _ _ _ _ x s); [|done| |done]; cbn [demand needs];
        rewrite <-Hlen; [exact Hf|by rewrite (slen_eq _ _ _ Hx)].
  - (* SAssignInput *) destruct (m !! x) as [l|] eqn:Hx; [|done]. rewrite decide_True in Hb by lia. got Hx s Hs Hl.
    obs. eapply run_to_mono; [by eapply (assign_input_run Hcfg w ρ x s l)|..].
    + intros [] w1 (cs & Ev & Hset). apply run_to_ret. eapply sets_good; [done|exact Hset| |done|done|done].
      cbn [sstep]. unfold sinput. rewrite Hx, decide_True, Ev by lia. unfold splice.
      by rewrite drop_all, app_nil_r.
    + intros e w1 [(-> & Ev & H1 & Hlt)|Hu]; [|by apply undone_bad].
      apply throws_bad; [done|done| |done]. cbn [sstep]. unfold sinput. by rewrite Hx, decide_True, Ev by lia.
  - (* SAssignIlist *) destruct (m !! x) as [l|] eqn:Hx; [|done]. destruct (svalues m _) as [cs'|] eqn:Hv; [|done].
    pose proof (svalues_ext _ _ _ Hv) as ->. got Hx s Hs Hl.
    obs. eapply run_to_mono; [eapply (assign_na_run Hcfg w ρ x s l _ cs); [done..|apply fills_list]|..].
    + intros [] w1 Hmod. apply run_to_ret. eapply (mods_good _ _ _ _ x s _ cs); [done|done|exact Hmod| |done|by left|done].
      cbn [sstep]. unfold supd. by rewrite Hx, Hv.
    + intros e w1 Hf. by eapply (fails_bad _ _ _ _ x s).
  - (* SAssignFill *) destruct (m !! x) as [l|] eqn:Hx; [|done]. got Hx s Hs Hl.
    obs. unfold str_assign_fill. pose proof (assign_na_run Hcfg w ρ x s l _ _ H Hs Hl (fills_count ρ x n c)) as Hrun.
    rewrite replicate_length in Hrun. eapply run_to_mono; [exact Hrun|..].
    + intros [] w1 Hmod. apply run_to_ret. eapply (mods_good _ _ _ _ x s); [done|done|exact Hmod| |done|by left|done].
      cbn [sstep]. unfold supd. by rewrite Hx.
    + intros e w1 Hf. by eapply (fails_bad _ _ _ _ x s).
  - (* SAppendRange *) destruct (m !! x) as [l|] eqn:Hx; [|done]. destruct (svalues m r) as [cs|] eqn:Hv; [|done].
    destruct (decide _) as [Hn|] eqn:Ed; [|done].
    got Hx s Hs Hl. destruct (bind_cs w ρ m _ cs H Hrel Hv) as (from & E & Hsrc & Hlen & Hm).
    obs. eapply run_to_mono; [by eapply (append_range_run Hcfg w ρ x s l)|..].
    + intros [] w1 Hmod. apply run_to_ret. eapply (mods_good _ _ _ _ x s); [done|done|exact Hmod| |done|left|done].
      { cbn [sstep]. unfold supd. by rewrite Hx, Hv, Ed. }
      cbn [needs]. by rewrite (slen_eq _ _ _ Hx), Hlen.
    + intros e w1 Hf. eapply (fails_bad _ _ _ _ x s); [|done| |done]; cbn [demand needs];
        rewrite (slen_eq _ _ _ Hx), <-Hlen; [exact Hf|done].
  - (* SAppendInput *) destruct (m !! x) as [l|] eqn:Hx; [|done]. rewrite decide_True in Hb by lia. got Hx s Hs Hl.
    obs. eapply run_to_mono; [by eapply (append_input_run Hcfg w ρ x s l)|..].
    + intros [] w1 (cs & Ev & Hset). apply run_to_ret. eapply sets_good; [done|exact Hset| |done|done|done].
      cbn [sstep]. unfold sinput. rewrite Hx, decide_True, Ev by lia. unfold splice.
      by rewrite firstn_all, drop_all, app_nil_r.
    + intros e w1 [(-> & Ev & H1 & Hlt)|Hu].
      * apply throws_bad; [done|done| |done]. cbn [sstep]. unfold sinput. by rewrite Hx, decide_True, Ev by lia.
      * apply undone_bad; [|done|done]. cbn [demand]. by rewrite (slen_eq _ _ _ Hx).
  - (* SAppendIlist *) destruct (m !! x) as [l|] eqn:Hx; [|done]. destruct (svalues m _) as [cs'|] eqn:Hv; [|done].
    pose proof (svalues_ext _ _ _ Hv) as ->. got Hx s Hs Hl.
    destruct (bind_cs w ρ m _ cs H Hrel Hv) as (_ & _ & _ & _ & Hm).
    obs. eapply run_to_mono; [eapply (append_na_run Hcfg w ρ x s l _ cs); [done..|apply fills_list|]|..].
    + pose proof (holds_cap _ _ Hl). pose proof (rep_cap Hcfg _ _ _ _ H Hs). unfold countable.
      destruct Hcfg as (_ & _ & _ & Hw & _). pose proof (ptrdiff_half Hw). lia.
    + intros [] w1 Hmod. apply run_to_ret. eapply (mods_good _ _ _ _ x s); [done|done|exact Hmod| |done|left|done].
      { cbn [sstep]. unfold supd. by rewrite Hx, Hv. } cbn [needs]. by rewrite (slen_eq _ _ _ Hx).
    + intros e w1 Hf. eapply (fails_bad _ _ _ _ x s); [|done| |done]; cbn [demand needs];
        rewrite (slen_eq _ _ _ Hx); [exact Hf|done].
  - (* SAppendFill *) destruct (m !! x) as [l|] eqn:Hx; [|done]. destruct (decide _) as [Hn|] eqn:Ed; [|done].
    got Hx s Hs Hl.
    obs. unfold str_append_fill. pose proof (append_na_run Hcfg w ρ x s l _ _ H Hs Hl (fills_count ρ x n c)) as Hrun.
    rewrite replicate_length in Hrun. eapply run_to_mono; [by apply Hrun|..].
    + intros [] w1 Hmod. apply run_to_ret. eapply (mods_good _ _ _ _ x s); [done|done|exact Hmod| |done|left|done].
      { cbn [sstep]. unfold supd. by rewrite Hx, Ed. } cbn [needs]. by rewrite (slen_eq _ _ _ Hx).
    + intros e w1 Hf. eapply (fails_bad _ _ _ _ x s); [|done| |done]; cbn [demand needs];
        rewrite (slen_eq _ _ _ Hx); [exact Hf|done].
  - (* SInsertRange *) destruct (m !! x) as [l|] eqn:Hx; [|done]. unfold sreplace in Hb.
    destruct (svalues m r) as [cs|] eqn:Hv; [|done]. destruct (decide _) as [[Hi Hn]|] eqn:Ed; [|done].
    got Hx s Hs Hl. destruct (bind_cs w ρ m _ cs H Hrel Hv) as (from & E & Hsrc & Hlen & Hm).
    obs. eapply run_to_mono; [eapply (insert_range_run Hcfg w ρ x s l); [done..|lia|done|done|by rewrite Hlen]|..].
    + intros a w1 (-> & Hmod). apply run_to_ret. eapply (mods_good _ _ _ _ x s); [done|done|exact Hmod| |done|left|done].
      { cbn [sstep]. unfold supd, sreplace. by rewrite Hx, Hv, Ed. }
      cbn [needs]. by rewrite (slen_eq _ _ _ Hx), Hlen.
    + intros e w1 Hf. eapply (fails_bad _ _ _ _ x s); [|done| |done]; cbn [demand needs];
        rewrite (slen_eq _ _ _ Hx), <-Hlen; [exact Hf|done].
  - (* SInsertInput *) destruct (m !! x) as [l|] eqn:Hx; [|done]. destruct (decide _) as [Hi|] eqn:Ed; [|done]. got Hx s Hs Hl.
    obs. eapply run_to_mono; [eapply (insert_input_run Hcfg w ρ x s l); [done..|lia]|..].
    + intros a w1 (-> & cs & Ev & Hset). apply run_to_ret. eapply sets_good; [done|exact Hset| |done|done|done].
      cbn [sstep]. unfold sinput. by rewrite Hx, Ed, Ev.
    + intros e w1 [(-> & Ev & H1 & Hlt)|Hu].
      * apply throws_bad; [done|done| |done]. cbn [sstep]. unfold sinput. by rewrite Hx, Ed, Ev.
      * apply undone_bad; [|done|done]. cbn [demand]. by rewrite (slen_eq _ _ _ Hx).
  - (* SInsertIlist *) destruct (m !! x) as [l|] eqn:Hx; [|done]. unfold sreplace in Hb.
    destruct (svalues m _) as [cs'|] eqn:Hv; [|done]. destruct (decide _) as [[Hi Hi2]|] eqn:Ed; [|done].
    pose proof (svalues_ext _ _ _ Hv) as ->. got Hx s Hs Hl.
    destruct (bind_cs w ρ m _ cs H Hrel Hv) as (_ & _ & _ & _ & Hm).
    obs. eapply run_to_mono; [eapply (insert_na_run Hcfg w ρ x s l i _ cs); [done..|apply fills_list|lia|]|..].
    + pose proof (holds_cap _ _ Hl). pose proof (rep_cap Hcfg _ _ _ _ H Hs). unfold countable.
      destruct Hcfg as (_ & _ & _ & Hw & _). pose proof (ptrdiff_half Hw). lia.
    + intros a w1 (-> & Hmod). apply run_to_ret. eapply (mods_good _ _ _ _ x s); [done|done|exact Hmod| |done|left|done].
      { cbn [sstep]. unfold supd, sreplace. by rewrite Hx, Hv, Ed. } cbn [needs]. by rewrite (slen_eq _ _ _ Hx).
    + intros e w1 Hf. eapply (fails_bad _ _ _ _ x s); [|done| |done]; cbn [demand needs];
        rewrite (slen_eq _ _ _ Hx); [exact Hf|done].
  - (* SInsertFill *) destruct (m !! x) as [l|] eqn:Hx; [|done]. unfold sreplace in Hb.
    destruct (decide _) as [[Hi Hn]|] eqn:Ed; [|done]. got Hx s Hs Hl.
    obs. unfold str_insert_fill. pose proof (insert_na_run Hcfg w ρ x s l i _ _ H Hs Hl (fills_count ρ x n c)) as Hrun.
    rewrite replicate_length in Hrun. eapply run_to_mono; [apply Hrun; [lia|done]|..].
    + intros a w1 (-> & Hmod). apply run_to_ret. eapply (mods_good _ _ _ _ x s); [done|done|exact Hmod| |done|left|done].
      { cbn [sstep]. unfold supd, sreplace. by rewrite Hx, Ed. } cbn [needs]. by rewrite (slen_eq _ _ _ Hx).
    + intros e w1 Hf. eapply (fails_bad _ _ _ _ x s); [|done| |done]; cbn [demand needs];
        rewrite (slen_eq _ _ _ Hx); [exact Hf|done].
  - (* SReplaceRange *) destruct (m !! x) as [l|] eqn:Hx; [|done]. unfold sreplace in Hb.
    destruct (svalues m r) as [cs|] eqn:Hv; [|done]. destruct (decide _) as [[Hi Hn]|] eqn:Ed; [|done].
    got Hx s Hs Hl. destruct (bind_cs w ρ m _ cs H Hrel Hv) as (from & E & Hsrc & Hlen & Hm).
    obs. eapply run_to_mono; [eapply (replace_range_run Hcfg w ρ x s l); [done..|by rewrite Hlen]|..].
    + intros [] w1 Hmod. apply run_to_ret. eapply (mods_good _ _ _ _ x s); [done|done|exact Hmod| |done|left|done].
      { cbn [sstep]. unfold supd, sreplace. by rewrite Hx, Hv, Ed. }
      cbn [needs]. by rewrite (slen_eq _ _ _ Hx), Hlen.
    + intros e w1 Hf. eapply (fails_bad _ _ _ _ x s); [|done| |done]; cbn [demand needs];
        rewrite (slen_eq _ _ _ Hx), <-Hlen; [exact Hf|done].
  - (* SReplaceInput *) destruct (m !! x) as [l|] eqn:Hx; [|done]. destruct (decide _) as [Hi|] eqn:Ed; [|done]. got Hx s Hs Hl.
    obs. eapply run_to_mono; [eapply (replace_input_run Hcfg w ρ x s l); done|..].
    + intros [] w1 (cs & Ev & Hset). apply run_to_ret. eapply sets_good; [done|exact Hset| |done|done|done].
      cbn [sstep]. unfold sinput. by rewrite Hx, Ed, Ev.
    + intros e w1 [(-> & Ev & H1 & Hlt)|Hu].
      * apply throws_bad; [done|done| |done]. cbn [sstep]. unfold sinput. by rewrite Hx, Ed, Ev.
      * apply undone_bad; [|done|done]. cbn [demand]. by rewrite (slen_eq _ _ _ Hx).
  - (* SReplaceIlist *) destruct (m !! x) as [l|] eqn:Hx; [|done]. unfold sreplace in Hb.
    destruct (svalues m _) as [cs'|] eqn:Hv; [|done]. destruct (decide _) as [[Hi Hi2]|] eqn:Ed; [|done].
    pose proof (svalues_ext _ _ _ Hv) as ->. got Hx s Hs Hl.
    destruct (bind_cs w ρ m _ cs H Hrel Hv) as (_ & _ & _ & _ & Hm).
    obs. eapply run_to_mono; [eapply (replace_na_run Hcfg w ρ x s l i j _ cs); [done..|apply fills_list|lia|]|..].
    + pose proof (holds_cap _ _ Hl). pose proof (rep_cap Hcfg _ _ _ _ H Hs). unfold countable.
      destruct Hcfg as (_ & _ & _ & Hw & _). pose proof (ptrdiff_half Hw). lia.
    + intros [] w1 Hmod. apply run_to_ret. eapply (mods_good _ _ _ _ x s); [done|done|exact Hmod| |done|left|done].
      { cbn [sstep]. unfold supd, sreplace. by rewrite Hx, Hv, Ed. } cbn [needs]. by rewrite (slen_eq _ _ _ Hx).
    + intros e w1 Hf. eapply (fails_bad _ _ _ _ x s); [|done| |done]; cbn [demand needs];
        rewrite (slen_eq _ _ _ Hx); [exact Hf|done].
  - (* SReplaceFill *) destruct (m !! x) as [l|] eqn:Hx; [|done]. unfold sreplace in Hb.
    destruct (decide _) as [[Hi Hn]|] eqn:Ed; [|done]. got Hx s Hs Hl.
    obs. unfold str_replace_fill. pose proof (replace_na_run Hcfg w ρ x s l i j _ _ H Hs Hl (fills_count ρ x n c)) as Hrun.
    rewrite replicate_length in Hrun. eapply run_to_mono; [apply Hrun; [lia|done]|..].
    + intros [] w1 Hmod. apply run_to_ret. eapply (mods_good _ _ _ _ x s); [done|done|exact Hmod| |done|left|done].
      { cbn [sstep]. unfold supd, sreplace. by rewrite Hx, Ed. } cbn [needs]. by rewrite (slen_eq _ _ _ Hx).
    + intros e w1 Hf. eapply (fails_bad _ _ _ _ x s); [|done| |done]; cbn [demand needs];
        rewrite (slen_eq _ _ _ Hx); [exact Hf|done].
  - (* SErase *) destruct (m !! x) as [l|] eqn:Hx; [|done]. unfold sreplace in Hb.
    destruct (decide _) as [[Hi Hi2]|] eqn:Ed; [|done]. got Hx s Hs Hl.
    destruct (erase_eq Hcfg w ρ x s l i j H Hs Hl Hi) as (w1 & E & Hsm & Hk).
    obs. eapply run_to_eq; [exact E|]. apply run_to_ret.
    eapply (mods_good _ _ _ _ x s); [done|done|by apply eq_mods| |done|by left|done].
    cbn [sstep]. unfold supd, sreplace. by rewrite Hx, Ed.
  - (* SErase1 *) destruct (m !! x) as [l|] eqn:Hx; [|done]. unfold sreplace in Hb.
    destruct (decide _) as [[Hi Hi2]|] eqn:Ed; [|done]. got Hx s Hs Hl.
    destruct (erase_eq Hcfg w ρ x s l i (S i) H Hs Hl Hi) as (w1 & E & Hsm & Hk).
    obs. apply run_to_noexcept. rewrite Nat.add_1_r. eapply run_to_eq; [exact E|]. apply run_to_ret.
    eapply (mods_good _ _ _ _ x s); [done|done|by apply eq_mods| |done|by left|done].
    cbn [sstep]. unfold supd, sreplace. by rewrite Hx, Ed.
  - (* SPushBack *) destruct (m !! x) as [l|] eqn:Hx; [|done]. got Hx s Hs Hl.
    obs. eapply run_to_mono; [by eapply (push_back_run Hcfg w ρ x s l)|..].
    + intros [] w1 [Hmod _]. apply run_to_ret. eapply (mods_good _ _ _ _ x s); [done|done|exact Hmod| |done|left|done].
      { cbn [sstep]. unfold supd. by rewrite Hx. } cbn [needs]. by rewrite (slen_eq _ _ _ Hx).
    + intros e w1 Hf. eapply (fails_bad _ _ _ _ x s); [|done| |done]; cbn [demand needs];
        rewrite (slen_eq _ _ _ Hx); [exact Hf|done].
  - (* SPopBack *) destruct (m !! x) as [l|] eqn:Hx; [|done]. destruct (decide _) as [|Hne] eqn:Ed; [done|]. got Hx s Hs Hl.
    destruct (pop_back_eq w ρ x s l H Hs Hl) as (w1 & E & Hsm & Hk).
    obs. eapply run_to_eq; [exact E|]. apply run_to_ret.
    eapply (mods_good _ _ _ _ x s); [done|done|by apply eq_mods| |done|by left|done].
    cbn [sstep]. unfold supd. by rewrite Hx, Ed.
  - (* SReserve *) destruct (m !! x) as [l|] eqn:Hx; [|done]. got Hx s Hs Hl.
    obs. eapply run_to_mono; [by eapply (reserve_run Hcfg w ρ x s l)|..].
    + intros [] w1 (r & H1 & Hl1 & Hlt & _ & Hk & _). apply run_to_ret.
      eapply (mods_good _ _ _ _ x s n l); [done|done| | |done|by left|done].
      * exists r. sp; [done|done|done|]. intros [-> ->]%Hk. split; [apply kept_refl|done].
      * cbn [sstep]. unfold supd. by rewrite Hx.
    + intros e w1 Hf. by eapply (fails_bad _ _ _ _ x s).
  - (* SResize *) destruct (m !! x) as [l|] eqn:Hx; [|done]. got Hx s Hs Hl.
    obs. unfold str_resize. eapply run_to_mono; [by eapply (resize_run Hcfg w ρ x s l)|..].
    + intros [] w1 Hmod. apply run_to_ret. eapply (mods_good _ _ _ _ x s); [done|done|exact Hmod| |done|by left|done].
      cbn [sstep]. unfold supd. by rewrite Hx.
    + intros e w1 Hf. by eapply (fails_bad _ _ _ _ x s).
  - (* SResizeFill *) destruct (m !! x) as [l|] eqn:Hx; [|done]. got Hx s Hs Hl.
    obs. eapply run_to_mono; [by eapply (resize_run Hcfg w ρ x s l)|..].
    + intros [] w1 Hmod. apply run_to_ret. eapply (mods_good _ _ _ _ x s); [done|done|exact Hmod| |done|by left|done].
      cbn [sstep]. unfold supd. by rewrite Hx.
    + intros e w1 Hf. by eapply (fails_bad _ _ _ _ x s).
  - (* SShrink *) destruct (m !! x) as [l|] eqn:Hx; [|done]. got Hx s Hs Hl.
    destruct (shrink_eq w ρ x s l H Hs Hl Hcfg) as (w1 & r & E & Hsm & H1 & Hl1 & _).
    obs. eapply run_to_eq; [exact E|]. apply run_to_ret. eapply (sets_good _ _ _ _ x l); [done| | |done|done|done].
    + exists r. sp; [done|done|by apply same_later].
    + cbn [sstep]. unfold supd. by rewrite Hx.
  - (* SClear *) destruct (m !! x) as [l|] eqn:Hx; [|done]. got Hx s Hs Hl.
    destruct (clear_eq w ρ x s l H Hs Hl) as (w1 & E & Hsm & Hk).
    obs. eapply run_to_eq; [exact E|]. apply run_to_ret.
    eapply (mods_good _ _ _ _ x s); [done|done|by apply eq_mods| |done|by left|done].
    cbn [sstep]. unfold supd. by rewrite Hx.
  - (* SSwap *) destruct (m !! x) as [l|] eqn:Hx; [|done]. destruct (m !! y) as [k|] eqn:Hy; [|done].
    got Hx s Hs Hl. got Hy t Ht Hk. obs. destruct (decide (x = y)) as [->|Hxy].
    + unfold str_swap. apply run_to_noexcept. rewrite decide_True by done.
      eapply run_to_bind_ok; [by eapply get_str_eq, rep_obj|]. do 2 apply run_to_ret.
      apply read_good; [done|done| |done]. cbn [sstep]. rewrite Hy. do 2 f_equal.
      assert (l = k) as -> by congruence. rewrite insert_insert. by apply insert_id.
    + destruct (swap_eq w ρ x y s t l k H Hxy Hs Ht Hl Hk Hcfg) as (w1 & r & q & E & Hsm & H1 & Hr & Hq & _).
      eapply run_to_eq; [exact E|]. apply run_to_ret.
      eapply (two_good _ _ _ _ x y k l); [done|done|exact Hr|exact Hq|done|done| |done|done].
      cbn [sstep]. by rewrite Hx, Hy.
  - (* SSubstrTail *) destruct (m !! z) eqn:Hz; [done|]. destruct (m !! x) as [l|] eqn:Hx; [|done].
    destruct (decide (i ≤ length l)) as [Hi|] eqn:Ed; [|done]. got Hx s Hs Hl. pose proof (rel_none _ _ _ Hrel Hz) as Hzr.
    obs. unfold str_substr_tail. eapply run_to_bind_ok; [by eapply str_size_eq|]. rewrite (proj1 Hl).
    assert (Hv : svalues m (RSub x i (length l - i)) = Some (drop i l)).
    { unfold svalues. cbn [srange]. rewrite Hx, decide_True by lia. rewrite values_fmap. f_equal.
      apply take_ge. rewrite drop_length. lia. }
    destruct (bind_cs w ρ m _ _ H Hrel Hv) as (from & E & Hsrc & Hlen & Hm).
    unfold str_new_range. eapply run_to_bind_ok; [exact E|]. eapply run_to_mono; [by apply new_cs|..].
    + intros [] w1 Hset. apply run_to_ret. eapply sets_good; [done|exact Hset| |done|done|done].
      cbn [sstep]. unfold snew. by rewrite Hz, Hx, Ed.
    + intros e w1 Hu. apply undone_bad; [|done|done]. cbn [demand].
      rewrite (slen_eq _ _ _ Hx). by rewrite drop_length in Hu.
  - (* SSubstr *) destruct (m !! z) eqn:Hz; [done|]. destruct (svalues m _) as [cs|] eqn:Hv; [|done].
    pose proof (rel_none _ _ _ Hrel Hz) as Hzr.
    destruct (bind_cs w ρ m _ _ H Hrel Hv) as (from & E & Hsrc & Hlen & Hm).
    obs. unfold str_substr, str_new_range. eapply run_to_bind_ok; [exact E|]. eapply run_to_mono; [by apply new_cs|..].
    + intros [] w1 Hset. apply run_to_ret. eapply sets_good; [done|exact Hset| |done|done|done].
      cbn [sstep]. unfold snew. by rewrite Hz, Hv.
    + intros e w1 Hu. apply undone_bad; [|done|done]. cbn [demand]. by rewrite Hlen in Hu.
  - (* SSubstrTailMove *) destruct (m !! z) eqn:Hz; [done|]. destruct (m !! x) as [l|] eqn:Hx; [|done].
    destruct (decide (i ≤ length l)) as [Hi|] eqn:Ed; [|done]. got Hx s Hs Hl. pose proof (rel_none _ _ _ Hrel Hz) as Hzr.
    assert (Hzx : z ≠ x) by congruence.
    destruct (erase_eq Hcfg w ρ x s l 0 i H Hs Hl) as (w1 & E1 & Hsm1 & r1 & H1 & Hl1 & Hk1); [lia|].
    cbn [take app] in Hl1.
    destruct (move_new_eq w1 _ z x r1 (drop i l) H1) as (w2 & r2 & E2 & Hsm2 & H2 & Hl2 & _);
      [by rewrite lookup_insert_ne|by rewrite lookup_insert|done|done|].
    obs. apply run_to_noexcept. eapply run_to_bind_ok; [exact E1|]. apply run_to_noexcept.
    eapply run_to_eq; [exact E2|]. apply run_to_ret.
    rewrite (insert_commute _ z x) in H2 by done. rewrite insert_insert in H2.
    eapply (two_good _ _ _ _ z x (drop i l)); [done|done|exact Hl2|exact (holds_moved _ _ Hl1)|by eapply same_trans|exact H2| |done|done].
    cbn [sstep]. rewrite Hz, Hx, Ed. unfold smoved. rewrite (inline_eq _ _ _ _ H Hs). rewrite (proj1 Hk1). by destruct (r_home s).
  - (* SSubstrMove *) destruct (m !! z) eqn:Hz; [done|]. destruct (m !! x) as [l|] eqn:Hx; [|done].
    destruct (decide (i + n ≤ length l)) as [Hi|] eqn:Ed; [|done]. got Hx s Hs Hl. pose proof (rel_none _ _ _ Hrel Hz) as Hzr.
    assert (Hzx : z ≠ x) by congruence.
    destruct (erase_eq Hcfg w ρ x s l (i + n) (length l) H Hs Hl) as (w1 & E1 & Hsm1 & r1 & H1 & Hl1 & Hk1); [lia|].
    rewrite drop_all, app_nil_r in Hl1.
    destruct (erase_eq Hcfg w1 _ x r1 _ 0 i H1 (lookup_insert _ _ _) Hl1) as (w2 & E2 & Hsm2 & r2 & H2 & Hl2 & Hk2);
      [rewrite take_length; lia|].
    cbn [take app] in Hl2. rewrite skipn_firstn_comm in Hl2. replace (i + n - i) with n in Hl2 by lia.
    rewrite insert_insert in H2.
    destruct (move_new_eq w2 _ z x r2 (take n (drop i l)) H2) as (w3 & r3 & E3 & Hsm3 & H3 & Hl3 & _);
      [by rewrite lookup_insert_ne|by rewrite lookup_insert|exact Hl2|done|].
    obs. apply run_to_noexcept. eapply run_to_bind_ok; [by eapply str_size_eq|]. rewrite (proj1 Hl).
    eapply run_to_bind_ok; [exact E1|]. eapply run_to_bind_ok; [exact E2|]. apply run_to_noexcept.
    eapply run_to_eq; [exact E3|]. apply run_to_ret.
    rewrite (insert_commute _ z x) in H3 by done. rewrite insert_insert in H3.
    eapply (two_good _ _ _ _ z x); [done|done|exact Hl3|exact (holds_moved _ _ Hl2)| |exact H3| |done|done].
    { eapply same_trans; [done|]. by eapply same_trans. }
    cbn [sstep]. rewrite Hz, Hx, Ed. unfold smoved. rewrite (inline_eq _ _ _ _ H Hs).
    rewrite (proj1 Hk2), (proj1 Hk1). by destruct (r_home s).
  - (* SSet *) destruct (m !! x) as [l|] eqn:Hx; [|done]. destruct (decide _) as [Hi|] eqn:Ed; [|done]. got Hx s Hs Hl.
    destruct (set_eq w ρ x s l i c H Hs Hl Hi) as (w1 & E & Hsm & Hk).
    obs. eapply run_to_eq; [exact E|]. apply run_to_ret.
    eapply (mods_good _ _ _ _ x s); [done|done|by apply eq_mods| |done|by left|done].
    cbn [sstep]. unfold supd. by rewrite Hx, Ed.
  - (* SAt *) destruct (m !! x) as [l|] eqn:Hx; [|done]. got Hx s Hs Hl.
    obs. unfold str_at. eapply run_to_bind_ok; [by eapply str_size_eq|]. rewrite (proj1 Hl).
    destruct (l !! i) as [v|] eqn:Hi.
    + pose proof (lookup_lt_Some _ _ _ Hi). rewrite (proj2 (Nat.leb_gt _ _)) by lia.
      eapply run_to_eq; [eapply index_eq; [done..|by apply lookup_app_l_Some]|]. apply run_to_ret.
      apply read_good; [done|done| |done]. cbn [sstep]. by rewrite Hx, Hi.
    + apply lookup_ge_None in Hi as Hge. rewrite (proj2 (Nat.leb_le _ _)) by lia.
      eapply throws_bad; [done|apply later_refl| |done]. cbn [sstep]. by rewrite Hx, Hi.
  - (* SIndex *) destruct (m !! x) as [l|] eqn:Hx; [|done]. destruct (l !! i) as [v|] eqn:Hi; [|done]. got Hx s Hs Hl.
    obs. eapply run_to_eq; [eapply index_eq; [done..|by apply lookup_app_l_Some]|]. apply run_to_ret.
    apply read_good; [done|done| |done]. cbn [sstep]. unfold sget. by rewrite Hx, Hi.
  - (* SFront *) destruct (m !! x) as [l|] eqn:Hx; [|done]. destruct (l !! 0) as [v|] eqn:Hi; [|done]. got Hx s Hs Hl.
    obs. unfold str_front. eapply run_to_eq; [eapply index_eq; [done..|by apply lookup_app_l_Some]|]. apply run_to_ret.
    apply read_good; [done|done| |done]. cbn [sstep]. unfold sget. by rewrite Hx, Hi.
  - (* SBack *) destruct (m !! x) as [l|] eqn:Hx; [|done]. destruct (l !! _) as [v|] eqn:Hi; [|done]. got Hx s Hs Hl.
    obs. unfold str_back. eapply run_to_bind_ok; [by eapply str_size_eq|]. rewrite (proj1 Hl).
    eapply run_to_eq; [eapply index_eq; [done..|by apply lookup_app_l_Some]|]. apply run_to_ret.
    apply read_good; [done|done| |done]. cbn [sstep]. unfold sget. by rewrite Hx, Hi.
  - (* SCStr *) destruct (m !! x) as [l|] eqn:Hx; [|done]. destruct (_ !! i) as [v|] eqn:Hi; [|done]. got Hx s Hs Hl.
    obs. unfold str_c_str. eapply run_to_eq; [by eapply index_eq|]. apply run_to_ret.
    apply read_good; [done|done| |done]. cbn [sstep]. by rewrite Hx, Hi.
  - (* SSize *) destruct (m !! x) as [l|] eqn:Hx; [|done]. got Hx s Hs Hl.
    obs. eapply run_to_eq; [by eapply str_size_eq|]. apply run_to_ret.
    apply read_good; [done|done| |done]. cbn [sstep]. by rewrite Hx, (proj1 Hl).
  - (* SEmpty *) destruct (m !! x) as [l|] eqn:Hx; [|done]. got Hx s Hs Hl.
    obs. unfold str_empty. eapply run_to_bind_ok; [by eapply str_size_eq|]. do 2 apply run_to_ret.
    apply read_good; [done|done| |done]. cbn [sstep]. rewrite Hx, (proj1 Hl). by destruct l.
Qed.
End proofs.
