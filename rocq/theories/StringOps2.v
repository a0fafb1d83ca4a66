(** What the member functions of ptl::string (StringModel.v) do, part 2: ranges, constructors,
    append, assign, insert and replace. *)
From stdpp Require Import prelude gmap.
From Coq Require Import ZArith Lia.
From Verif Require Import Cpp StringModel StringSpec StringMem StringRep StringOps.
Local Open Scope nat_scope.

Section proofs.
Context `{C : StrCfg} (Hcfg : cfg_ok).
Notation raws := (gmap nat raw).

(** ** Sources *)
(** the iterators [from] designate [vs]: values, or characters of the strings [ρ] *)
Definition src_ok (ρ : raws) (from : nat → chsrc) (vs : list (option char)) : Prop :=
  ∀ k v, vs !! k = Some v →
    match from k with
    | CVal o => o = v
    | CPtr (q, i) => is_Some v ∧ ∃ y r, ρ !! y = Some r ∧ q = hp y r ∧ r_cells r !! i = Some v ∧ i < r_siz r
    end.
Lemma src_own w ρ x s from vs : Rep w ρ → ρ !! x = Some s → src_ok ρ from vs →
  ∀ k v, vs !! k = Some v → den (mem w) (hp x s) (r_siz s) k (from k) v.
Proof.
  intros H Hx Hsrc k v Hk. specialize (Hsrc k v Hk). unfold den. destruct (from k) as [o|[q i]]; [done|].
  destruct Hsrc as (? & y & r & Hy & -> & Hi & Hlt). split; [done|]. exists (r_cells r).
  split; [by eapply rep_cells|]. split; [done|]. intros E.
  assert (y = x) as -> by (by eapply (rep_inj _ _ H)). assert (r = s) as -> by congruence. lia.
Qed.
Lemma src_new w ρ t q from vs lo : Rep w (<[t:=q]> ρ) → ρ !! t = None → src_ok ρ from vs →
  ∀ k v, vs !! k = Some v → den (mem w) (hp t q) lo k (from k) v.
Proof.
  intros H Ht Hsrc k v Hk. specialize (Hsrc k v Hk). unfold den. destruct (from k) as [o|[p i]]; [done|].
  destruct Hsrc as (? & y & r & Hy & -> & Hi & Hlt). split; [done|].
  assert (y ≠ t) by congruence. assert (Hy' : <[t:=q]> ρ !! y = Some r) by by rewrite lookup_insert_ne.
  exists (r_cells r). split; [by eapply rep_cells|]. split; [done|]. intros E.
  exfalso. apply H1. eapply (rep_inj _ _ H); [done|by rewrite lookup_insert|done].
Qed.
Lemma values_Forall l : Forall is_Some l → ∃ cs, values l = Some cs ∧ l = Some <$> cs.
Proof.
  induction 1 as [|v l [c ->] _ (cs & E & ->)]; [by exists []|].
  exists (c :: cs). cbn [values]. by rewrite E.
Qed.
Lemma values_Some l cs : values l = Some cs → l = Some <$> cs.
Proof.
  revert cs. induction l as [|[c|] l IH]; intros cs; cbn [values]; [by intros [= <-]| |done].
  destruct (values l) as [cs'|]; [|done]. intros [= <-]. by rewrite (IH cs').
Qed.
Lemma values_None l : values l = None → ¬ Forall is_Some l.
Proof. intros H Hf. apply values_Forall in Hf as (cs & E & _). congruence. Qed.
Lemma values_fmap cs : values (Some <$> cs) = Some cs.
Proof. induction cs as [|c cs IH]; [done|]. rewrite fmap_cons. cbn [values]. by rewrite IH. Qed.
Lemma values_length l cs : values l = Some cs → length cs = length l.
Proof. intros ->%values_Some. by rewrite fmap_length. Qed.

Lemma src_list ρ l : src_ok ρ (λ k, CVal (match l !! k with Some c => c | None => None end)) l.
Proof. intros k v Hk. by rewrite Hk. Qed.
Lemma bind_range_eq w ρ (m : gmap nat (list char)) r vs : Rep w ρ →
  (∀ y l, m !! y = Some l → ∃ s, ρ !! y = Some s ∧ holds s l) → srange m r = Some vs →
  ∃ from, bind_range r w = Ok (from, length vs) w ∧ src_ok ρ from vs ∧ length vs = rlen r ∧ length vs ≤ ptrdiff_max.
Proof.
  intros H Hm Hr. destruct r as [l|y i n]; cbn [srange bind_range rlen] in *.
  - destruct (decide _) as [Hl|]; [|done]. injection Hr as ->. eexists. split; [done|]. sp; [apply src_list|done|].
    apply ptrdiff_lt; [apply Hcfg|done].
  - destruct (m !! y) as [l|] eqn:Hy; [|done]. destruct (Hm _ _ Hy) as (s & Hs & Hl).
    destruct (decide _) as [Hi|]; [|done]. injection Hr as <-.
    assert (Hlen : length (Some <$> take n (drop i l)) = n) by (rewrite fmap_length, take_length, drop_length; lia).
    eexists. rewrite Hlen. erewrite bind_ok by by eapply str_data_eq. split; [reflexivity|]. sp.
    + intros k v Hk. rewrite list_lookup_fmap in Hk. destruct (take n (drop i l) !! k) as [c|] eqn:Ek; [|done].
      cbn in Hk. injection Hk as <-. apply lookup_take_Some in Ek as [Ek Hkn]. rewrite lookup_drop in Ek.
      unfold padd. cbn [fst snd]. rewrite Nat.add_0_l. split; [eauto|]. exists y, s. sp; [done|done|by eapply holds_lookup|].
      rewrite (proj1 Hl). by eapply lookup_lt_Some.
    + done.
    + pose proof (rep_cap Hcfg _ _ _ _ H Hs). pose proof (holds_cap _ _ Hl). lia.
Qed.

(** copying a source into the spare part of a buffer *)
Lemma copy_in w ρ x s n c i from vs : Rep w (<[x:=Raw (r_home s) n c]> ρ) →
  i + length vs ≤ length c →
  (∀ k v, vs !! k = Some v → den (mem w) (hp x s) i k (from k) v) →
  run_to (copy_from from (hp x s, i) (length vs)) w
    (λ _ w', ∃ cs, values vs = Some cs ∧ same w w' ∧
       length (write_at i (Some <$> cs) c) = length c ∧
       Rep w' (<[x:=Raw (r_home s) n (write_at i (Some <$> cs) c)]> ρ))
    (λ e w', e = ElementThrow ∧ values vs = None ∧ same w w' ∧
       ∃ c', length c' = length c ∧ Rep w' (<[x:=Raw (r_home s) n c']> ρ)).
Proof.
  intros H Hl Hsrc.
  eapply run_to_mono; [apply (copy_from_run from vs w _ c i); [by eapply x_mem|done|done]|..].
  - intros _ w' [Ha ->]. destruct (values_Forall _ Ha) as (cs & E & ->). exists cs.
    rewrite fmap_length in Hl.
    assert (length (write_at i (Some <$> cs) c) = length c) by (apply write_at_length; by rewrite fmap_length).
    sp; [done|done|done|by eapply x_write].
  - intros e w' (-> & Hn & c' & Hc' & ->). sp; [done| |done|].
    + destruct (values vs) eqn:E; [|done]. exfalso. apply Hn. rewrite (values_Some _ _ E). apply Forall_Some_fmap.
    + exists c'. split; [done|]. by eapply x_write.
Qed.

(** ** Constructors *)
Lemma construct_run w ρ x body (Q : unit → world → Prop) (E : exn → world → Prop) : Rep w ρ → ρ !! x = None →
  (∀ w0, Rep w0 (<[x:=raw0]> ρ) → same w w0 →
     run_to body w0 Q (λ e w', ∃ r w1, Rep w1 (<[x:=r]> ρ) ∧ w' = w1 ∧ ∀ w2, Rep w2 ρ → same w1 w2 → E e w2)) →
  run_to (construct_str x body) w Q E.
Proof.
  intros H Hx Hbody. unfold construct_str.
  destruct (default_eq w ρ x H Hx) as (w0 & E0 & Hs & H0). eapply run_to_bind_ok; [exact E0|].
  apply run_to_on_exn. eapply run_to_mono; [by apply Hbody|done|].
  intros e w' (r & w1 & H1 & -> & HE).
  destruct (dtor_eq w1 _ x r H1 (lookup_insert _ _ _)) as (w2 & E2 & Hs2 & H2).
  eapply run_to_eq; [exact E2|]. apply HE; [|done].
  rewrite delete_insert_delete in H2. by rewrite delete_notin in H2.
Qed.

(** string(first, last) *)
Lemma new_from_run w ρ x from vs : Rep w ρ → ρ !! x = None → src_ok ρ from vs → roomy (length vs) →
  run_to (str_new_from x (from, length vs)) w
    (λ _ w', ∃ cs r, values vs = Some cs ∧ Rep w' (<[x:=r]> ρ) ∧ holds r cs ∧ later w w')
    (λ e w', (e = ElementThrow ∧ values vs = None ∧ Rep w' ρ ∧ later w w') ∨ undone w ρ (length vs) e w').
Proof.
  intros H Hx Hsrc Hr. unfold str_new_from. cbn [fst snd]. eapply construct_run; [done..|].
  intros w0 H0 Hs0. apply run_to_bind.
  eapply run_to_mono; [eapply (storage_assign_run Hcfg w0 _ x raw0); [done|by rewrite lookup_insert|done]|..].
  2:{ intros e w1 (H1 & Hlt & Hex). exists raw0, w1. sp; [done|done|]. intros w2 H2 Hs2. right. split; [done|]. split.
      - eapply later_trans; [by apply same_later|]. eapply later_trans; [done|]. by apply same_later.
      - eapply excuse_mono; [| |reflexivity|done]; by apply same_later. }
  intros [] w1 (r1 & H1 & Hl1 & Hc1 & Hlt1 & _). rewrite insert_insert in H1.
  pose proof (rep_len _ _ _ _ H1 (lookup_insert _ _ _)) as Hlr.
  pose proof H1 as H1'. rewrite (raw_eta r1) in H1'.
  destruct (x_set w1 ρ x r1 _ _ (length vs) Hcfg H1') as (w2 & E2 & Hs2 & H2); [lia|].
  eapply run_to_bind_ok; [exact E2|]. eapply run_to_bind_ok; [by eapply x_data|].
  eapply run_to_mono.
  { eapply (copy_in w2 ρ x r1 _ _ 0 from vs); [exact H2| |].
    - rewrite insert_length. lia.
    - intros k v Hk. apply (src_new w2 ρ x _ from vs 0 H2 Hx Hsrc k v Hk). }
  - intros _ w3 (cs & Ev & Hs3 & Hw & H3). exists cs. eexists. sp; [done|exact H3| |].
    + apply holds_starts. cbn [r_siz r_cells]. pose proof (values_length _ _ Ev) as Elen. split; [done|].
      intros k v Hk. rewrite write_at_lookup by (rewrite insert_length, fmap_length; lia).
      rewrite fmap_length, !Nat.add_0_l. apply lookup_app_Some in Hk as [Hk|[Hk1 Hk]].
      * pose proof (lookup_lt_Some _ _ _ Hk). rewrite decide_True by lia. by rewrite Nat.sub_0_r, list_lookup_fmap, Hk.
      * apply list_lookup_singleton_Some in Hk as [Hk2 <-]. rewrite decide_False by lia.
        replace k with (length vs) by lia. apply list_lookup_insert. lia.
    + eapply later_trans; [by apply same_later|]. eapply later_trans; [done|].
      eapply later_trans; by apply same_later.
  - intros e w3 (-> & Ev & Hs3 & c' & Hc' & H3). eexists _, w3. sp; [exact H3|done|].
    intros w4 H4 Hs4. left. sp; try done. eapply later_trans; [by apply same_later|]. eapply later_trans; [done|].
    apply same_later. eapply same_trans; [done|]. by eapply same_trans.
Qed.
(** string(count, ch) *)
Lemma new_fill_run w ρ x n ch : Rep w ρ → ρ !! x = None → roomy n →
  run_to (str_new_fill x n ch) w
    (λ _ w', ∃ r, Rep w' (<[x:=r]> ρ) ∧ holds r (replicate n ch) ∧ later w w')
    (λ e w', undone w ρ n e w').
Proof.
  intros H Hx Hr. unfold str_new_fill. eapply construct_run; [done..|].
  intros w0 H0 Hs0. apply run_to_bind.
  eapply run_to_mono; [eapply (storage_assign_run Hcfg w0 _ x raw0); [done|by rewrite lookup_insert|done]|..].
  2:{ intros e w1 (H1 & Hlt & Hex). exists raw0, w1. sp; [done|done|]. intros w2 H2 Hs2. split; [done|]. split.
      - eapply later_trans; [by apply same_later|]. eapply later_trans; [done|]. by apply same_later.
      - eapply excuse_mono; [| |reflexivity|done]; by apply same_later. }
  intros [] w1 (r1 & H1 & Hl1 & Hc1 & Hlt1 & _). rewrite insert_insert in H1.
  pose proof (rep_len _ _ _ _ H1 (lookup_insert _ _ _)) as Hlr.
  pose proof H1 as H1'. rewrite (raw_eta r1) in H1'.
  destruct (x_set w1 ρ x r1 _ _ n Hcfg H1') as (w2 & E2 & Hs2 & H2); [lia|].
  eapply run_to_bind_ok; [exact E2|]. eapply run_to_bind_ok; [by eapply x_data|].
  eapply run_to_eq.
  { apply (fill_n_eq n ch w2 _ _ 0 (x_mem _ _ _ _ _ _ H2)). rewrite insert_length. lia. }
  eexists. sp.
  - eapply x_write; [exact H2|]. apply write_at_length. rewrite replicate_length, insert_length. lia.
  - apply holds_starts. cbn [r_siz r_cells]. rewrite replicate_length. split; [done|].
    intros k v Hk. rewrite write_at_lookup by (rewrite insert_length, replicate_length; lia).
    rewrite replicate_length, !Nat.add_0_l. apply lookup_app_Some in Hk as [Hk|[Hk1 Hk]].
    + apply lookup_replicate in Hk as [-> Hk]. rewrite decide_True by lia. apply lookup_replicate. split; [done|lia].
    + rewrite replicate_length in *. apply list_lookup_singleton_Some in Hk as [Hk2 <-]. rewrite decide_False by lia.
      replace k with n by lia. apply list_lookup_insert. lia.
  - eapply later_trans; [by apply same_later|]. eapply later_trans; [done|]. by apply same_later.
Qed.
(** string(first, last) from input iterators *)
Lemma push_all_run : ∀ vs w ρ x s l, Rep w ρ → ρ !! x = Some s → holds s l →
  run_to (push_all x vs) w
    (λ _ w', ∃ cs r, values vs = Some cs ∧ Rep w' (<[x:=r]> ρ) ∧ holds r (l ++ cs) ∧ later w w')
    (λ e w', ∃ r, Rep w' (<[x:=r]> ρ) ∧ later w w' ∧
       ((e = ElementThrow ∧ values vs = None) ∨ excuse w (length l + length vs) e w')).
Proof.
  induction vs as [|v vs IH]; intros w ρ x s l H Hx Hl; cbn [push_all].
  { apply run_to_ret. exists [], s. rewrite app_nil_r, insert_id by done. sp; try done. }
  destruct v as [c|]; cbn [rd_src].
  2:{ unfold run_to, bind, throw. exists s. rewrite insert_id by done. sp; [done|done|]. left. by split. }
  eapply run_to_bind_ok; [done|]. apply run_to_bind.
  eapply run_to_mono; [by eapply (push_back_run Hcfg)|..].
  - intros [] w1 [(r1 & H1 & Hl1 & Hlt1 & _) _].
    eapply run_to_mono; [eapply IH; [done|by rewrite lookup_insert|done]|..].
    + intros [] w2 (cs & r2 & Ev & H2 & Hl2 & Hlt2). exists (c :: cs), r2. rewrite insert_insert in H2.
      rewrite <-app_assoc in Hl2. cbn [values]. rewrite Ev. sp; [done|done|done|by eapply later_trans].
    + intros e w2 (r2 & H2 & Hlt2 & Hex). exists r2. rewrite insert_insert in H2. sp; [done|by eapply later_trans|].
      destruct Hex as [[-> Ev]|Hex].
      * left. cbn [values]. by rewrite Ev.
      * right. eapply excuse_mono; [done|apply later_refl| |done]. rewrite app_length. cbn [length]. lia.
  - intros e w1 (H1 & Hlt1 & _ & Hex). exists s. rewrite insert_id by done. sp; [done|done|]. right.
    eapply excuse_mono; [apply later_refl|apply later_refl| |done]. cbn [length]. lia.
Qed.
Lemma new_input_run w ρ x vs : Rep w ρ → ρ !! x = None →
  run_to (str_new_input x vs) w
    (λ _ w', ∃ cs r, values vs = Some cs ∧ Rep w' (<[x:=r]> ρ) ∧ holds r cs ∧ later w w')
    (λ e w', (e = ElementThrow ∧ values vs = None ∧ Rep w' ρ ∧ later w w') ∨ undone w ρ (length vs) e w').
Proof.
  intros H Hx. unfold str_new_input. eapply construct_run; [done..|]. intros w0 H0 Hs0.
  eapply run_to_mono; [eapply (push_all_run vs w0 _ x raw0 []); [done|by rewrite lookup_insert|apply holds_raw0]|..].
  - intros [] w1 (cs & r & Ev & H1 & Hl & Hlt). exists cs, r. rewrite insert_insert in H1. sp; try done.
    eapply later_trans; [by apply same_later|done].
  - intros e w1 (r & H1 & Hlt & Hex). rewrite insert_insert in H1. exists r, w1. sp; [done|done|].
    intros w2 H2 Hs2.
    assert (later w w2). { eapply later_trans; [by apply same_later|]. eapply later_trans; [done|by apply same_later]. }
    destruct Hex as [[-> Ev]|Hex]; [by left|right]. split; [done|]. split; [done|].
    eapply excuse_mono; [| | |exact Hex]; [by apply same_later|by apply same_later|done].
Qed.

(** lhs + rhs *)
Lemma src_ok_mono ρ ρ' from vs : (∀ y r, ρ !! y = Some r → ρ' !! y = Some r) → src_ok ρ from vs → src_ok ρ' from vs.
Proof.
  intros Hsub H k v Hk. specialize (H k v Hk). destruct (from k) as [o|[q i]]; [done|].
  destruct H as (? & y & r & Hy & ?). split; [done|]. exists y, r. split; [by apply Hsub|done].
Qed.
Lemma concat_run w ρ (m : gmap nat (list char)) z l r a b : Rep w ρ → ρ !! z = None →
  (∀ y l, m !! y = Some l → ∃ s, ρ !! y = Some s ∧ holds s l) →
  svalues m l = Some a → svalues m r = Some b → roomy (length a + length b) →
  run_to (str_concat z l r) w
    (λ _ w', ∃ r, Rep w' (<[z:=r]> ρ) ∧ holds r (a ++ b) ∧ later w w')
    (λ e w', undone w ρ (length a + length b) e w').
Proof.
  intros H Hz Hm Ha Hb Hr. unfold svalues in *.
  destruct (srange m l) as [va|] eqn:Ela; [|done]. destruct (srange m r) as [vb|] eqn:Elb; [|done].
  destruct (bind_range_eq w ρ m l va H Hm Ela) as (fa & Efa & Hfa & _ & _).
  destruct (bind_range_eq w ρ m r vb H Hm Elb) as (fb & Efb & Hfb & _ & _).
  pose proof (values_Some _ _ Ha) as ->. pose proof (values_Some _ _ Hb) as ->. rewrite fmap_length in *.
  unfold str_concat. eapply run_to_bind_ok; [exact Efa|]. eapply run_to_bind_ok; [exact Efb|]. cbn [fst snd].
  rewrite (roomy_wadd Hcfg) by done.
  eapply construct_run; [done..|].
  intros w0 H0 Hs0. apply run_to_bind.
  eapply run_to_mono; [eapply (storage_assign_run Hcfg w0 _ z raw0); [done|by rewrite lookup_insert|done]|..].
  2:{ intros e w1 (H1 & Hlt & Hex). exists raw0, w1. sp; [done|done|]. intros w2 H2 Hs2. split; [done|]. split.
      - eapply later_trans; [by apply same_later|]. eapply later_trans; [done|]. by apply same_later.
      - eapply excuse_mono; [| |reflexivity|done]; by apply same_later. }
  intros [] w1 (r1 & H1 & Hl1 & Hc1 & Hlt1 & _). rewrite insert_insert in H1.
  pose proof (rep_len _ _ _ _ H1 (lookup_insert _ _ _)) as Hlr.
  pose proof H1 as H1'. rewrite (raw_eta r1) in H1'.
  destruct (x_set w1 ρ z r1 _ _ (length a + length b) Hcfg H1') as (w2 & E2 & Hs2 & H2); [lia|].
  eapply run_to_bind_ok; [exact E2|]. eapply run_to_bind_ok; [by eapply x_data|].
  set (c2 := <[length a + length b:=Some NUL]> (r_cells r1)) in *.
  assert (Hlc2 : length c2 = cap r1 + 1) by (unfold c2; by rewrite insert_length).
  eapply run_to_bind_ok.
  { apply (copy_from_eq fa a w2 _ c2 0); [by eapply x_mem|lia|].
    intros k v Hk. apply (src_new w2 ρ z _ fa (Some <$> a) 0 H2 Hz Hfa). by rewrite list_lookup_fmap, Hk. }
  set (c3 := write_at 0 (Some <$> a) c2).
  assert (Hlc3 : length c3 = length c2) by (unfold c3; apply write_at_length; rewrite fmap_length; lia).
  pose proof (x_write _ _ _ _ _ _ c3 H2 Hlc3) as H3. fold c3.
  unfold padd. cbn [fst snd]. rewrite Nat.add_0_l.
  eapply run_to_eq.
  { apply (copy_from_eq fb b _ _ c3 (length a)); [by eapply x_mem|lia|].
    intros k v Hk. apply (src_new _ ρ z _ fb (Some <$> b) _ H3 Hz Hfb). by rewrite list_lookup_fmap, Hk. }
  set (c4 := write_at (length a) (Some <$> b) c3).
  assert (Hlc4 : length c4 = length c3) by (unfold c4; apply write_at_length; rewrite fmap_length; lia).
  eexists. sp; [eapply x_write; [exact H3|exact Hlc4]| |].
  - apply holds_starts. cbn [r_siz r_cells]. rewrite app_length. split; [done|].
    assert (starts c4 (a ++ b)) as Hst.
    { apply starts_append; [|lia]. pose proof (starts_write c2 [] a 0 ltac:(done) ltac:(lia) ltac:(lia)) as Hs.
      by rewrite drop_nil, app_nil_r in Hs. }
    intros k v Hk. apply lookup_app_Some in Hk as [Hk|[Hk1 Hk]]; [by apply Hst|].
    apply list_lookup_singleton_Some in Hk as [Hk2 <-]. rewrite app_length in *.
    unfold c4. rewrite write_at_lookup by (rewrite fmap_length; lia). rewrite fmap_length, decide_False by lia.
    unfold c3. rewrite write_at_lookup by (rewrite fmap_length; lia). rewrite fmap_length, decide_False by lia.
    replace k with (length a + length b) by lia. apply list_lookup_insert. lia.
  - eapply later_trans; [by apply same_later|]. eapply later_trans; [done|]. by apply same_later.
Qed.

(** ** append, assign, insert, replace without aliasing *)
(** [fill] writes [cs] into [x] at the offset it is given *)
Definition fills (ρ : raws) (x : nat) (fill : nat → M world unit) (cs : list char) : Prop :=
  ∀ w s n c off, Rep w (<[x:=Raw (r_home s) n c]> ρ) → off + length cs ≤ length c →
    fill off w = Ok tt (mins (hp x s) (write_at off (Some <$> cs) c) w).
Lemma fills_list ρ x cs : fills ρ x (fill_list x cs) cs.
Proof.
  intros w s n c off H Hl. unfold fill_list. erewrite bind_ok by by eapply x_data. unfold padd. cbn [fst snd].
  apply copy_from_eq; [by eapply x_mem|done|]. intros k v Hk. cbn [den]. done.
Qed.
Lemma fills_count ρ x n ch : fills ρ x (fill_count x n ch) (replicate n ch).
Proof.
  intros w s k c off H Hl. unfold fill_count. erewrite bind_ok by by eapply x_data. unfold padd. cbn [fst snd].
  rewrite replicate_length in Hl. rewrite fmap_replicate_Some. apply fill_n_eq; [by eapply x_mem|done].
Qed.
Lemma fills_str ρ x t q cs : x ≠ t → ρ !! t = Some q → holds q cs → fills ρ x (fill_str x t) cs.
Proof.
  intros Hxt Ht Hq w s n c off H Hl. unfold fill_str.
  assert (Ht' : <[x:=Raw (r_home s) n c]> ρ !! t = Some q) by by rewrite lookup_insert_ne.
  erewrite bind_ok by by eapply str_data_eq. erewrite bind_ok by by eapply str_size_eq.
  erewrite bind_ok by by eapply x_data. rewrite (proj1 Hq). unfold padd. cbn [fst snd].
  eapply copy_n_eq; [by eapply rep_cells| |by eapply x_mem|done|].
  - intros k v Hk. rewrite Nat.add_0_l. by eapply holds_lookup.
  - intros E. exfalso. apply Hxt. symmetry. eapply (rep_inj _ _ H); [exact Ht'|by rewrite lookup_insert|exact E].
Qed.

Lemma append_na_run w ρ x s l fill cs : Rep w ρ → ρ !! x = Some s → holds s l → fills ρ x fill cs →
  countable (length l + length cs) →
  run_to (append_no_aliasing x (length cs) fill) w
    (λ _ w', mods w ρ x s (length l + length cs) (l ++ cs) w')
    (λ e w', fails w ρ s (length l + length cs) (length l + length cs) e w').
Proof.
  intros H Hx Hl Hf Hc. unfold append_no_aliasing. eapply run_to_bind_ok; [by eapply str_size_eq|].
  rewrite (proj1 Hl), countable_wadd by done. unfold str_resize.
  apply run_to_bind. eapply run_to_mono; [by eapply (resize_run Hcfg)| |done].
  intros [] w1 (r & H1 & Hl1 & Hlt & Hk). pose proof (holds_cap _ _ Hl1) as Hcap.
  pose proof (rep_len _ _ _ _ H1 (lookup_insert _ _ _)) as Hlr.
  rewrite take_ge in * by lia. rewrite app_length, replicate_length in Hcap.
  pose proof H1 as H1'. rewrite (raw_eta r) in H1'.
  eapply run_to_eq; [eapply (Hf w1 r); [exact H1'|lia]|].
  set (c := write_at (length l) (Some <$> cs) (r_cells r)).
  assert (Hw : length c = length (r_cells r)) by (unfold c; apply write_at_length; rewrite fmap_length; lia).
  eexists. sp; [eapply x_write; [exact H1'|exact Hw]| |done|].
  - apply holds_starts. cbn [r_siz r_cells]. apply holds_starts in Hl1 as [Hz Hst].
    replace (length l + length cs - length l) with (length cs) in * by lia.
    rewrite app_length, replicate_length in Hz. rewrite app_length. split; [done|].
    pose proof (starts_write _ _ cs (length l) Hst) as Hst2.
    rewrite !app_length, replicate_length in Hst2. cbn [length] in Hst2.
    specialize (Hst2 ltac:(lia) ltac:(lia)). fold c in Hst2.
    rewrite <-app_assoc in Hst2. rewrite take_app, drop_app_ge in Hst2 by lia.
    replace (length l + length cs - length l) with (length cs) in Hst2 by lia.
    rewrite drop_app_alt in Hst2 by (by rewrite replicate_length). by rewrite app_assoc in Hst2.
  - intros Hle. destruct (Hk Hle) as [[Hh Hcp] Hsm]. split; [|done]. split; [done|]. unfold cap in *. cbn [r_cells].
    by rewrite Hw.
Qed.
Lemma assign_na_run w ρ x s l fill cs : Rep w ρ → ρ !! x = Some s → holds s l → fills ρ x fill cs →
  run_to (assign_no_aliasing x (length cs) (fill 0)) w
    (λ _ w', mods w ρ x s (length cs) cs w')
    (λ e w', fails w ρ s (length cs) (length cs) e w').
Proof.
  intros H Hx Hl Hf. unfold assign_no_aliasing, str_resize.
  apply run_to_bind. eapply run_to_mono; [by eapply (resize_run Hcfg)| |done].
  intros [] w1 (r & H1 & Hl1 & Hlt & Hk). pose proof (holds_cap _ _ Hl1) as Hcap.
  pose proof (rep_len _ _ _ _ H1 (lookup_insert _ _ _)) as Hlr.
  assert (Hlen : length (take (length cs) l ++ replicate (length cs - length l) NUL) = length cs).
  { rewrite app_length, take_length, replicate_length. lia. }
  set (l1 := take (length cs) l ++ replicate (length cs - length l) NUL) in *. clearbody l1.
  pose proof H1 as H1'. rewrite (raw_eta r) in H1'.
  eapply run_to_eq; [eapply (Hf w1 r); [exact H1'|lia]|].
  set (c := write_at 0 (Some <$> cs) (r_cells r)).
  assert (Hw : length c = length (r_cells r)) by (unfold c; apply write_at_length; rewrite fmap_length; lia).
  eexists. sp; [eapply x_write; [exact H1'|exact Hw]| |done|].
  - apply holds_starts. cbn [r_siz r_cells]. apply holds_starts in Hl1 as [Hz Hst]. split; [congruence|].
    pose proof (starts_write _ _ cs 0 Hst) as Hst2. rewrite !app_length in Hst2. cbn [length] in Hst2.
    specialize (Hst2 ltac:(lia) ltac:(lia)). fold c in Hst2. cbn [take app] in Hst2. rewrite Nat.add_0_l in Hst2.
    rewrite drop_app_alt in Hst2 by done. done.
  - intros Hle. destruct (Hk Hle) as [[Hh Hcp] Hsm]. split; [|done]. split; [done|]. unfold cap in *. cbn [r_cells].
    by rewrite Hw.
Qed.
(** opening a gap of [k] characters at [i], [j - i] characters being dropped *)
Lemma gap_run w ρ x s l i k fill cs A (a : A) :
  Rep w ρ → ρ !! x = Some s → holds s l → fills ρ x fill cs → i ≤ length l →
  ∀ j, i ≤ j ≤ length l → length cs = k + (j - i) → countable (length l + k) →
  run_to (old <- str_size x ;; str_resize x (wadd old k) ;;;
          d <- str_data x ;; n <- str_size x ;;
          copy_backward d j (old - j) n ;;; fill i ;;; ret a) w
    (λ a' w', a' = a ∧ mods w ρ x s (length l + k) (take i l ++ cs ++ drop j l) w')
    (λ e w', fails w ρ s (length l + k) (length l + k) e w').
Proof.
  intros H Hx Hl Hf Hi j Hj Hcs Hc. eapply run_to_bind_ok; [by eapply str_size_eq|].
  rewrite (proj1 Hl), countable_wadd by done. unfold str_resize.
  apply run_to_bind. eapply run_to_mono; [by eapply (resize_run Hcfg)| |done].
  intros [] w1 (r & H1 & Hl1 & Hlt & Hk). pose proof (holds_cap _ _ Hl1) as Hcap.
  pose proof (rep_len _ _ _ _ H1 (lookup_insert _ _ _)) as Hlr.
  rewrite take_ge in * by lia. rewrite app_length, replicate_length in Hcap.
  replace (length l + k - length l) with k in * by lia.
  pose proof H1 as H1'. rewrite (raw_eta r) in H1'.
  eapply run_to_bind_ok; [by eapply x_data|]. eapply run_to_bind_ok; [by eapply x_size|].
  apply holds_starts in Hl1 as [Hz Hst]. rewrite app_length, replicate_length in Hz. rewrite Hz.
  rewrite <-(drop_length l j). replace (length l + k) with ((j + k) + length (drop j l)) by (rewrite drop_length; lia).
  eapply run_to_bind_ok.
  { eapply (copy_backward_eq (drop j l) w1 _ (r_cells r)); [by eapply x_mem| |lia|rewrite drop_length; lia].
    intros q v Hq. rewrite lookup_drop in Hq. apply Hst. apply lookup_app_l_Some. by apply lookup_app_l_Some. }
  set (c2 := write_at (j + k) (Some <$> drop j l) (r_cells r)).
  assert (Hlc2 : length c2 = length (r_cells r)).
  { unfold c2. apply write_at_length. rewrite fmap_length, drop_length. lia. }
  pose proof (x_write _ _ _ _ _ _ c2 H1' Hlc2) as H2.
  eapply run_to_bind_ok; [eapply (Hf _ r); [exact H2|lia]|].
  set (c3 := write_at i (Some <$> cs) c2).
  assert (Hlc3 : length c3 = length c2) by (unfold c3; apply write_at_length; rewrite fmap_length; lia).
  apply run_to_ret. split; [done|].
  eexists. sp; [eapply x_write; [exact H2|exact Hlc3]| |done|].
  - apply holds_starts. cbn [r_siz r_cells]. rewrite !app_length, take_length, drop_length. split; [lia|].
    assert (Hlen : length (take i l ++ cs ++ drop j l) = length l + k).
    { rewrite !app_length, take_length, drop_length. lia. }
    intros q v Hq. unfold c3. rewrite write_at_lookup by (rewrite fmap_length; lia). rewrite fmap_length.
    destruct (decide (i ≤ q < i + length cs)) as [Hin|Hout].
    { apply lookup_app_Some in Hq as [Hq|[Hq1 Hq]].
      2:{ rewrite Hlen in *. apply list_lookup_singleton_Some in Hq as [? <-]. lia. }
      rewrite lookup_app_r in Hq by (rewrite take_length; lia). rewrite take_length, Nat.min_l in Hq by lia.
      rewrite lookup_app_l in Hq by lia. by rewrite list_lookup_fmap, Hq. }
    unfold c2. rewrite write_at_lookup by (rewrite fmap_length, drop_length; lia). rewrite fmap_length, drop_length.
    destruct (decide (q < i)).
    { rewrite decide_False by lia. apply lookup_app_Some in Hq as [Hq|[Hq1 Hq]]; [|lia].
      rewrite lookup_app_l in Hq by (rewrite take_length; lia). apply lookup_take_Some in Hq as [Hq _].
      apply Hst. apply lookup_app_l_Some. by apply lookup_app_l_Some. }
    apply lookup_app_Some in Hq as [Hq|[Hq1 Hq]].
    + pose proof (lookup_lt_Some _ _ _ Hq) as Hql. rewrite decide_True by lia.
      rewrite lookup_app_r in Hq by (rewrite take_length; lia). rewrite take_length, Nat.min_l in Hq by lia.
      rewrite lookup_app_r in Hq by lia. rewrite list_lookup_fmap.
      replace (q - (j + k)) with (q - i - length cs) by lia. by rewrite Hq.
    + rewrite Hlen in *. apply list_lookup_singleton_Some in Hq as [Hq2 <-]. rewrite decide_False by lia.
      apply Hst. rewrite lookup_app_r by (rewrite app_length, replicate_length; lia).
      rewrite app_length, replicate_length. by replace (q - (length l + k)) with 0 by lia.
  - replace (j + k + length (drop j l)) with (length l + k) by (rewrite drop_length; lia).
    intros Hle. destruct (Hk Hle) as [[Hh Hcp] Hsm]. split; [|done]. split; [done|]. unfold cap in *. cbn [r_cells].
    by rewrite Hlc3, Hlc2.
Qed.
Lemma insert_na_run w ρ x s l i fill cs : Rep w ρ → ρ !! x = Some s → holds s l → fills ρ x fill cs →
  i ≤ length l → countable (length l + length cs) →
  run_to (insert_no_aliasing x i (length cs) (fill i)) w
    (λ a w', a = i ∧ mods w ρ x s (length l + length cs) (take i l ++ cs ++ drop i l) w')
    (λ e w', fails w ρ s (length l + length cs) (length l + length cs) e w').
Proof.
  intros H Hx Hl Hf Hi Hc. unfold insert_no_aliasing.
  eapply (gap_run w ρ x s l i (length cs) fill cs nat i); try done; lia.
Qed.
Lemma bind_ext {S A B} (m : M S A) (k k' : A → M S B) s : (∀ a s', k a s' = k' a s') → bind m k s = bind m k' s.
Proof. intros H. unfold bind. by destruct (m s). Qed.
Lemma bind_ret_tt {S} (m : M S unit) s : (m ;;; ret tt) s = m s.
Proof. unfold bind, ret. by destruct (m s) as [[] ?|? ?|?|]. Qed.
Lemma replace_na_run w ρ x s l i j fill cs : Rep w ρ → ρ !! x = Some s → holds s l → fills ρ x fill cs →
  i ≤ j ≤ length l → countable (length l - (j - i) + length cs) →
  run_to (replace_no_aliasing x i j (length cs) fill) w
    (λ _ w', mods w ρ x s (length l - (j - i) + length cs) (take i l ++ cs ++ drop j l) w')
    (λ e w', fails w ρ s (length l - (j - i) + length cs) (length l - (j - i) + length cs) e w').
Proof.
  intros H Hx Hl Hf Hij Hc. unfold replace_no_aliasing.
  destruct (Nat.ltb_spec (j - i) (length cs)) as [Hlt|Hge].
  - assert (En : length l - (j - i) + length cs = length l + (length cs - (j - i))) by lia. rewrite En in *.
    replace (i + (j - i)) with j by lia.
    pose proof (gap_run w ρ x s l i (length cs - (j - i)) fill cs unit tt H Hx Hl Hf ltac:(lia) j Hij ltac:(lia) Hc) as Hg.
    assert (Heq : ∀ (p q : M world unit), p w = q w → ∀ (Q Q' : unit → world → Prop) E, run_to q w Q' E →
        (∀ a w', Q' a w' → Q a w') → run_to p w Q E).
    { intros p q Epq Q Q' E HQ Himp. unfold run_to in *. rewrite Epq. destruct (q w); eauto. }
    eapply Heq; [|exact Hg|by intros a w' [_ Hm]].
    apply bind_ext. intros old w1. do 4 (apply bind_ext; intros ? ?). by rewrite bind_ret_tt.
  - pose proof (holds_cap _ _ Hl) as Hcl. pose proof (rep_len _ _ _ _ H Hx) as Hlr.
    pose proof (rep_eta _ _ _ _ H Hx) as H0.
    eapply run_to_bind_ok; [eapply (Hf w s); [exact H0|lia]|].
    set (c := write_at i (Some <$> cs) (r_cells s)).
    assert (Hw : length c = length (r_cells s)) by (unfold c; apply write_at_length; rewrite fmap_length; lia).
    pose proof (x_write _ _ _ _ _ _ c H0 Hw) as H1.
    set (l1 := take i l ++ cs ++ drop (i + length cs) l).
    assert (Hll : length l1 = length l).
    { unfold l1. rewrite !app_length, take_length, drop_length. lia. }
    assert (Hh : holds (Raw (r_home s) (r_siz s) c) l1).
    { apply holds_starts. cbn [r_siz r_cells]. split; [rewrite (proj1 Hl); done|].
      pose proof (proj2 (proj1 (holds_starts _ _) Hl)) as Hst. pose proof (starts_write _ _ cs i Hst) as Hst2.
      rewrite app_length in Hst2. cbn [length] in Hst2. specialize (Hst2 ltac:(lia) ltac:(lia)). fold c in Hst2.
      rewrite take_app_le in Hst2 by lia. rewrite drop_app_le in Hst2 by lia.
      unfold l1. by rewrite <-!app_assoc. }
    destruct (erase_eq Hcfg _ _ x _ l1 (i + length cs) (i + (j - i)) H1 (lookup_insert _ _ _) Hh) as (w2 & E2 & Hs2 & r & H2 & Hl2 & Hk2);
      [lia|].
    eapply run_to_bind_ok; [exact E2|]. apply run_to_ret. exists r. rewrite insert_insert in H2.
    sp; [done| | |].
    + replace (take i l ++ cs ++ drop j l) with (take (i + length cs) l1 ++ drop (i + (j - i)) l1); [done|].
      unfold l1. rewrite app_assoc. rewrite (take_app_alt (take i l ++ cs)) by (rewrite app_length, take_length; lia).
      rewrite (drop_app_ge (take i l ++ cs)) by (rewrite app_length, take_length; lia).
      rewrite drop_drop, app_length, take_length, Nat.min_l by lia. rewrite <-app_assoc.
      do 3 f_equal. lia.
    + by apply same_later.
    + intros _. split; [|done]. destruct Hk2 as [Hk2 Hk3]. split; [done|]. rewrite Hk3. unfold cap. cbn [r_cells]. by rewrite Hw.
Qed.
End proofs.
