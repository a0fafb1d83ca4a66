(** Proofs about agreement of the two layouts *)
From stdpp Require Import prelude strings.
From Verif Require Import LayoutModel LayoutSpec LayoutProofs AbiModel AbiSpec.
From Verif Require LayoutProps.
Local Open Scope N_scope.

(** ** Placing members *)
Lemma no_clash l m o : part_ok l → dsize l ≤ o → (dsize l = 0 → o = 0 → clash (empties l) (empties m) 0 = false) →
  clash (empties l) (empties m) o = false.
Proof.
  intros [_ He] Ho Hc. destruct (clash _ _ o) eqn:E; [|done]. pose proof E as E'.
  apply clash_true in E as (x & y & Hx & Hy & E & _). rewrite Forall_forall in He. specialize (He x Hx). cbn in He.
  assert (dsize l = 0) as Hd by lia. assert (o = 0) as -> by lia. rewrite Hc in E'; done.
Qed.
(** a class while its members are placed, under both *)
Record cur (p : option N) (l : layout) (ml : ms_layout) : Prop := Cur {
  cur_part : part_ok l;
  cur_size : dsize l = ms_size ml;
  cur_align : align l = ms_align ml;
  cur_offsets : offsets l = ms_offsets ml;
  cur_required : ms_required ml ≤ ms_align ml;
  cur_packed : packed p (align l) = align l;
}.
Lemma packed_idem p a : packed p (packed p a) = packed p a.
Proof. destruct p; cbn; lia. Qed.
Lemma packed_max p a b : packed p (N.max a b) = N.max (packed p a) (packed p b).
Proof. destruct p; cbn; lia. Qed.
Lemma place_cur p l ml m mm : pack_ok p → cur p l ml → lay_ok m →
  (dsize l = 0 → clash (empties l) (empties m) 0 = false) →
  size m = ms_size mm → align m = ms_align mm → ms_required mm ≤ packed p (ms_align mm) →
  cur p (place p l m) (ms_place p ml mm) ∧ 0 < dsize (place p l m).
Proof.
  intros Hp [Hpart Hs Ha Ho Hr Hpk] Hm Hc Es Ea Hreq.
  assert (ms_adjusted p mm = packed p (align m)) as Eadj by (unfold ms_adjusted; rewrite Ea; lia).
  assert (pow2 (packed p (align m))) as Hpow by (apply packed_pow2; [done|by apply ok_align]).
  pose proof (pow2_pos _ Hpow). pose proof (round_up_ge (dsize l) (packed p (align m))).
  pose proof (place_ok p l m Hp Hpart Hm) as Hpart'.
  assert (place p l m = Lay (size l) (N.max (align l) (packed p (align m))) (round_up (dsize l) (packed p (align m)) + size m)
    (offsets l ++ [round_up (dsize l) (packed p (align m))]) (empties l ++ shift (round_up (dsize l) (packed p (align m))) (empties m))) as E.
  { unfold place. rewrite find_place_no_clash; [done|]. apply no_clash; [done|auto|auto]. }
  split; [|rewrite E; cbn; destruct Hm; lia].
  constructor; [done|..]; rewrite ?E; unfold ms_place; rewrite ?Eadj; cbn [dsize align offsets ms_size ms_align ms_offsets ms_required].
  - by rewrite Hs, Es.
  - by rewrite Ha.
  - by rewrite Ho, Hs.
  - rewrite <-Ea in Hreq. lia.
  - by rewrite packed_max, packed_idem, Hpk.
Qed.
Lemma places_cur p ms mms : pack_ok p → Forall2 (λ m mm, lay_ok m ∧ size m = ms_size mm ∧ align m = ms_align mm ∧ ms_required mm ≤ packed p (ms_align mm)) ms mms →
  ∀ l ml, cur p l ml → (dsize l = 0 → ∀ m, head ms = Some m → clash (empties l) (empties m) 0 = false) →
  cur p (foldl (place p) l ms) (foldl (ms_place p) ml mms) ∧ (ms ≠ [] → 0 < dsize (foldl (place p) l ms)).
Proof.
  intros Hp. induction 1 as [|m mm ms mms (Hm & Es & Ea & Hr) _ IH]; intros l ml Hl Hc; [done|]. cbn [foldl].
  destruct (place_cur p l ml m mm) as [Hl' Hd]; [done|done|done|intros H0; by apply Hc|done..|].
  destruct (IH _ _ Hl') as [Hl'' Hd'']; [lia|]. split; [done|]. intros _. destruct ms; [cbn; done|by apply Hd''].
Qed.
(** size, alignment and offsets *)
Record sim (t : aty) : Prop := Sim {
  sim_size : sizeof (erase t) = ms_size (ms_lay t);
  sim_align : alignof (erase t) = ms_align (ms_lay t);
  sim_offsets : offsets (lay (erase t)) = ms_offsets (ms_lay t);
  sim_required : ms_required (ms_lay t) ≤ ms_align (ms_lay t);
}.
Lemma members_cur p ms : Forall wf (map erase ms) → Forall (λ m, sim m ∧ ms_required (ms_lay m) ≤ packed p (ms_align (ms_lay m))) ms →
  Forall2 (λ m mm, lay_ok m ∧ size m = ms_size mm ∧ align m = ms_align mm ∧ ms_required mm ≤ packed p (ms_align mm)) (map lay (map erase ms)) (map ms_lay ms).
Proof.
  intros Hwf. induction 1 as [|m ms ([Hs Ha Ho Hr] & Hp) _ IH]; cbn; [constructor|]. inversion Hwf; subst.
  constructor; [|by apply IH]. split_and!; [by apply lay_wf|done|done|done].
Qed.
Lemma finish_cur nm p b ms ml : pack_ok p → cur p (body p b ms) ml → (dsize (body p b ms) = 0 → align (body p b ms) = 1) →
  let t := Cls nm p b ms in
  size (lay t) = ms_size (ms_finish p ml) ∧ align (lay t) = ms_align (ms_finish p ml) ∧ offsets (lay t) = ms_offsets (ms_finish p ml) ∧
  ms_required (ms_finish p ml) = ms_required ml ∧ ms_required ml ≤ ms_align (ms_finish p ml) ∧
  ms_base (ms_finish p ml) = round_up (dsize (lay t)) (align (lay t)).
Proof.
  intros Hp [Hpart Hs Ha Ho Hr Hpk] H0 t. unfold t. rewrite lay_cls. unfold ms_finish.
  cbn [size align dsize offsets ms_size ms_align ms_required ms_base ms_offsets]. rewrite <-Ha, Hpk, <-Hs in *.
  rewrite !(N.max_l (align (body p b ms))) by lia.
  pose proof (pow2_pos _ (part_align _ Hpart)) as Hpos. set (r := body p b ms) in *. clearbody r.
  rewrite (round_up_same (round_up _ _)) by (done || apply round_up_divide). split_and!; try done.
  pose proof (round_up_ge (dsize r) (align r) Hpos).
  destruct (N.eqb_spec (round_up (dsize r) (align r)) 0) as [E|E].
  - assert (dsize r = 0) as Ed by lia. rewrite Ed, H0 by done. done.
  - assert (dsize r ≠ 0).
    { intros Ed. apply E. rewrite Ed. rewrite round_up_same; [done|done|apply N.divide_0_r]. }
    f_equal. lia.
Qed.
(** a class without base *)
Lemma class_sim nm p ms : pack_ok p → ms ≠ [] → Forall wf (map erase ms) →
  Forall (λ m, sim m ∧ ms_required (ms_lay m) ≤ packed p (ms_align (ms_lay m))) ms →
  sim (ACls nm p None ms) ∧ ms_base (ms_lay (ACls nm p None ms)) = round_up (dsize (lay (erase (ACls nm p None ms)))) (alignof (erase (ACls nm p None ms))).
Proof.
  intros Hp Hne Hwf Hms. cbn [erase ms_lay].
  assert (packed p 1 = 1) as H1.
  { destruct p as [p|]; [|done]. apply pow2_pos in Hp. cbn. lia. }
  destruct (places_cur p _ _ Hp (members_cur p ms Hwf Hms) (Lay 0 1 0 [] []) (MsLay 0 1 1 0 [])) as [Hc Hd].
  { constructor; try done. constructor; [apply pow2_1|constructor]. }
  { intros _ m _. done. }
  destruct (finish_cur nm p None (map erase ms) _ Hp Hc) as (E1 & E2 & E3 & E4 & E5 & E6).
  { intros E. exfalso. unfold body in E. cbn [start] in E. assert (map lay (map erase ms) ≠ []) by by destruct ms. apply Hd in H. lia. }
  split; [|exact E6]. constructor; cbn [erase ms_lay]; unfold sizeof, alignof; done.
Qed.
(** ... with an empty class that has no tail padding as base, or one that is packed *)
Lemma derived_sim nm p b ms : pack_ok p → wf (erase b) → Forall wf (map erase ms) →
  Forall (λ m, sim m ∧ ms_required (ms_lay m) ≤ packed p (ms_align (ms_lay m))) ms →
  sim b → ms_base (ms_lay b) = dsize (lay (erase b)) → ms_required (ms_lay b) ≤ packed p (ms_align (ms_lay b)) →
  alignof (erase b) = 1 →
  (dsize (lay (erase b)) = 0 → ∀ m, head ms = Some m → clash (empties (lay (erase b))) (empties (lay (erase m))) 0 = false) →
  sim (ACls nm p (Some b) ms) ∧
  ms_base (ms_lay (ACls nm p (Some b) ms)) = round_up (dsize (lay (erase (ACls nm p (Some b) ms)))) (alignof (erase (ACls nm p (Some b) ms))).
Proof.
  intros Hp Hwb Hwf Hms [Hs Ha Ho Hr] Hb Hbr Hba Hc0. cbn [erase ms_lay].
  assert (packed p 1 = 1) as H1.
  { destruct p as [p|]; [|done]. apply pow2_pos in Hp. cbn. lia. }
  unfold alignof in Hba, Ha. rewrite <-Ha, Hba in *. rewrite H1 in Hbr.
  assert (ms_adjusted p (ms_lay b) = 1) as Ead.
  { unfold ms_adjusted. rewrite <-Ha, H1. lia. }
  destruct (places_cur p _ _ Hp (members_cur p ms Hwf Hms) (start p (Some (erase b)))
    (MsLay (ms_base (ms_lay b)) (N.max 1 (ms_adjusted p (ms_lay b))) (ms_required (ms_lay b)) 0 [])) as [Hc Hd].
  { constructor; cbn [start dsize align offsets ms_size ms_align ms_offsets ms_required].
    - apply (start_ok p (Some (erase b))); [done|]. intros ? [= <-]. by apply lay_wf.
    - done.
    - rewrite Hba, Ead, H1. done.
    - done.
    - rewrite Ead. lia.
    - rewrite Hba, !H1. done. }
  { intros E m Hm. cbn [start dsize empties] in *. destruct ms as [|m' ms]; [done|]. cbn in Hm. injection Hm as <-. by apply Hc0. }
  destruct (finish_cur nm p (Some (erase b)) (map erase ms) _ Hp Hc) as (E1 & E2 & E3 & E4 & E5 & E6).
  { intros E. unfold body in *. destruct ms as [|m ms]; [|exfalso; assert (map lay (map erase (m :: ms)) ≠ []) by done; apply Hd in H; lia].
    cbn [map foldl start align]. by rewrite Hba. }
  split; [|exact E6]. constructor; cbn [erase ms_lay]; unfold sizeof, alignof; done.
Qed.
Lemma overlays p ms : ∀ l,
  ms_size (foldl (ms_overlay p) l ms) = N.max (ms_size l) (foldr N.max 0 (ms_size <$> ms)) ∧
  ms_align (foldl (ms_overlay p) l ms) = N.max (ms_align l) (foldr N.max 0 (ms_adjusted p <$> ms)) ∧
  ms_required (foldl (ms_overlay p) l ms) = N.max (ms_required l) (foldr N.max 0 (ms_required <$> ms)) ∧
  ms_offsets (foldl (ms_overlay p) l ms) = ms_offsets l ++ ((λ _, 0) <$> ms).
Proof.
  induction ms as [|m ms IH]; intros l; cbn [foldl].
  - cbn. rewrite app_nil_r. split_and!; try done; lia.
  - destruct (IH (ms_overlay p l m)) as (-> & -> & -> & ->). unfold ms_overlay. cbn [ms_size ms_align ms_required ms_offsets fmap list_fmap foldr].
    rewrite <-app_assoc. split_and!; try done; lia.
Qed.
Lemma union_sim p ms : pack_ok p → ms ≠ [] → Forall wf (map erase ms) →
  Forall (λ m, sim m ∧ ms_required (ms_lay m) ≤ packed p (ms_align (ms_lay m))) ms → sim (AUni p ms).
Proof.
  intros Hp Hne Hwf Hms. pose proof (members_cur p ms Hwf Hms) as Hc.
  assert (wf (erase (AUni p ms))) as Hw. { cbn [erase wf]. split_and!; [done|by destruct ms|by apply wf_Forall]. }
  apply lay_wf in Hw as [Hwa Hws Hwm _ _]. cbn [erase lay] in Hwa, Hws, Hwm.
  destruct (overlays p (map ms_lay ms) (MsLay 0 1 1 0 [])) as (Es & Ea & Er & Eo). cbn [ms_size ms_align ms_required ms_offsets app] in *.
  set (f := foldl (ms_overlay p) (MsLay 0 1 1 0 []) (map ms_lay ms)) in *.
  assert (foldr N.max 1 ((λ l, packed p (align l)) <$> map lay (map erase ms)) = ms_align f) as EA.
  { rewrite Ea. clear -Hc. induction Hc as [|m mm l ml (_ & _ & E & Hr) _ IH]; [done|]. cbn [fmap list_fmap foldr]. rewrite IH. unfold ms_adjusted at 2. rewrite E. lia. }
  assert (foldr N.max 0 (size <$> map lay (map erase ms)) = ms_size f) as ES.
  { rewrite Es. rewrite N.max_0_l. clear -Hc. induction Hc as [|m mm l ml (_ & E & _) _ IH]; [done|]. cbn [fmap list_fmap foldr]. by rewrite IH, E. }
  assert (ms_required f ≤ ms_align f) as ER.
  { rewrite Er, Ea. clear. induction (map ms_lay ms) as [|m l IH]; [done|]. cbn [fmap list_fmap foldr]. unfold ms_adjusted. fold (ms_adjusted p). lia. }
  assert (packed p (ms_align f) = ms_align f) as EP.
  { rewrite <-EA. clear -Hp. induction (map lay (map erase ms)) as [|m l IH]; cbn [fmap list_fmap foldr].
    - destruct p as [p|]; [|done]. apply pow2_pos in Hp. cbn. lia.
    - by rewrite packed_max, packed_idem, IH. }
  assert (0 < ms_size f) as Hpos.
  { rewrite <-ES. destruct ms as [|m ms]; [done|]. inversion Hwf as [|? ? Hm _]; subst. apply lay_wf in Hm as [_ ? _ _ _]. cbn [map fmap list_fmap foldr]. lia. }
  constructor; cbn [erase ms_lay]; fold f; unfold sizeof, alignof; cbn [lay size align offsets ms_finish ms_size ms_align ms_offsets ms_required].
  - rewrite EA, ES, EP. rewrite EA in Hwa. pose proof (pow2_pos _ Hwa) as Hap. cbn [align] in Hap.
    rewrite !(N.max_l (ms_align f)) by lia. rewrite (round_up_same (round_up _ _)) by (done || apply round_up_divide).
    pose proof (round_up_ge (ms_size f) _ Hap). destruct (N.eqb_spec (round_up (ms_size f) (ms_align f)) 0); [lia|]. f_equal. lia.
  - rewrite EA. lia.
  - rewrite Eo. clear. induction ms as [|m ms IH]; [done|]. cbn. f_equal. exact IH.
  - lia.
Qed.
Lemma opaque_sim s a d r : r ≤ a → sim (AOpaque s a d r).
Proof. intros Hr. by constructor. Qed.
Lemma array_sim t n : sim t → sim (AArr t n).
Proof. intros [Hs Ha Ho Hr]. constructor; cbn; unfold sizeof, alignof in *; [by rewrite Hs|done..]. Qed.

(** ** same_layout *)
Lemma same_Forall ms : foldr and True (map same_layout ms) ↔ Forall same_layout ms.
Proof. induction ms as [|m ms IH]; cbn; [done|]. rewrite IH. by rewrite Forall_cons. Qed.
Lemma same_class nm p b ms : sim (ACls nm p b ms) → (∀ t, b = Some t → same_layout t) → Forall same_layout ms → same_layout (ACls nm p b ms).
Proof. intros [? ? ? ?] Hb Hms. cbn [same_layout]. split_and!; try done; [destruct b; [by apply Hb|done]|by apply same_Forall]. Qed.
Lemma same_union p ms : sim (AUni p ms) → Forall same_layout ms → same_layout (AUni p ms).
Proof. intros [? ? ? ?] Hms. cbn [same_layout]. split_and!; try done. by apply same_Forall. Qed.
Lemma same_array t n : sim (AArr t n) → same_layout t → same_layout (AArr t n).
Proof. intros [? ? ? ?] Ht. cbn [same_layout]. done. Qed.
Lemma same_opaque s a d r : same_layout (AOpaque s a d r).
Proof. done. Qed.

(** ** What is required *)
Lemma places_required p ms l : ms_required (foldl (ms_place p) l ms) = N.max (ms_required l) (foldr N.max 0 (ms_required <$> ms)).
Proof. revert l. induction ms as [|m ms IH]; intros l; cbn; [lia|]. rewrite IH. cbn. lia. Qed.
Lemma class_required nm p ms : ms_required (ms_lay (ACls nm p None ms)) = foldr N.max 1 ((λ m, ms_required (ms_lay m)) <$> ms).
Proof.
  cbn [ms_lay ms_finish ms_required]. rewrite places_required. cbn [ms_required].
  induction ms as [|m ms IH]; cbn in *; [done|]. lia.
Qed.
Lemma derived_required nm p b ms : ms_required (ms_lay (ACls nm p (Some b) ms)) = foldr N.max (ms_required (ms_lay b)) ((λ m, ms_required (ms_lay m)) <$> ms).
Proof.
  cbn [ms_lay ms_finish ms_required]. rewrite places_required. cbn [ms_required].
  induction ms as [|m ms IH]; cbn in *; lia.
Qed.
Lemma union_required p ms : ms_required (ms_lay (AUni p ms)) = foldr N.max 1 ((λ m, ms_required (ms_lay m)) <$> ms).
Proof.
  cbn [ms_lay ms_finish ms_required]. destruct (overlays p (map ms_lay ms) (MsLay 0 1 1 0 [])) as (_ & _ & -> & _). cbn [ms_required].
  induction ms as [|m ms IH]; cbn in *; [done|]. lia.
Qed.
Lemma finish_required p l : ms_required (ms_finish p l) ≤ ms_align (ms_finish p l).
Proof. cbn. lia. Qed.

(** ** Empty classes at the start *)
Lemma first_empties p ms x : pack_ok p → Forall lay_ok ms → ∀ l, part_ok l → 0 < dsize l →
  (0, x) ∈ empties (foldl (place p) l ms) ↔ (0, x) ∈ empties l.
Proof.
  intros Hp. induction 1 as [|m ms Hm _ IH]; intros l Hl Hd; [done|]. cbn [foldl].
  set (o := find_place (S (length (empties l) * length (empties m))) (empties l) (empties m) (packed p (align m)) (round_up (dsize l) (packed p (align m)))).
  assert (dsize l ≤ o).
  { subst o. etrans; [|apply find_place_ge]. apply round_up_ge, pow2_pos, packed_pow2; [done|by apply ok_align]. }
  rewrite IH; [|by apply place_ok|unfold place; fold o; cbn [dsize]; lia].
  unfold place. fold o. cbn [empties]. rewrite elem_of_app. split; [|auto]. intros [|Hin]; [done|].
  unfold shift in Hin. apply elem_of_list_fmap in Hin as (y & [= E _] & _). lia.
Qed.
Lemma first_empty_class nm p m ms x : pack_ok p → wf m → Forall wf ms →
  (0, x) ∈ empties (lay (Cls nm p None (m :: ms))) ↔ (0, x) ∈ empties (lay m).
Proof.
  intros Hp Hm Hms. rewrite lay_cls. cbn [empties]. unfold body. cbn [map foldl start].
  pose proof (lay_wf _ Hm) as Hl. pose proof Hl as [Ha Hs _ _ _].
  assert (part_ok (Lay 0 1 0 [] [])) as H0 by (constructor; [apply pow2_1|constructor]).
  pose proof (packed_pow2 p _ Hp Ha) as Hpa. pose proof (pow2_pos _ Hpa) as Hpos.
  assert (place p (Lay 0 1 0 [] []) (lay m) = Lay 0 (N.max 1 (packed p (align (lay m)))) (0 + size (lay m)) [0] (shift 0 (empties (lay m)))) as E.
  { rewrite place_fits; [done|done|apply N.divide_0_r|by left]. }
  pose proof (place_ok p _ _ Hp H0 Hl) as Hpl. rewrite E in *.
  destruct (N.eqb_spec (dsize (foldl (place p) (Lay 0 (N.max 1 (packed p (align (lay m)))) (0 + size (lay m)) [0] (shift 0 (empties (lay m)))) (map lay ms))) 0) as [Ez|_].
  - exfalso. destruct (places_in_order p (map lay ms) Hp (Forall_lay _ Hms) _ Hpl) as (os & _ & _ & Ho & _).
    cbn [dsize] in Ho. rewrite Ez in Ho. apply (in_order_weaken _ _ (size (lay m))) in Ho; [|lia].
    assert (∀ total from l, in_order total from l → from ≤ total) as Hle.
    { clear. induction 1; lia. }
    apply Hle in Ho. lia.
  - rewrite app_nil_r, first_empties; [|done|by apply Forall_lay|done|cbn; lia]. cbn [empties].
    unfold shift. rewrite elem_of_list_fmap. split.
    + by intros ([o n] & [= -> ->] & Hin).
    + intros Hin. by exists (0, x).
Qed.
Lemma first_empty_union p ms x : (0, x) ∈ empties (lay (Uni p ms)) ↔ ∃ m, m ∈ ms ∧ (0, x) ∈ empties (lay m).
Proof.
  cbn [lay empties]. rewrite elem_of_list_In, in_concat. split.
  - intros (l & Hl & Hin). apply elem_of_list_In in Hl, Hin. apply elem_of_list_fmap in Hl as (l' & -> & Hl).
    change (map lay ms) with (lay <$> ms) in Hl. apply elem_of_list_fmap in Hl as (m & -> & Hm). eauto.
  - intros (m & Hm & Hin). exists (empties (lay m)). rewrite <-!elem_of_list_In. split; [|done].
    apply elem_of_list_fmap. exists (lay m). split; [done|]. apply elem_of_list_fmap. eauto.
Qed.
Lemma first_empty_array t n x : wf t → 0 < n → (0, x) ∈ empties (lay (Arr t n)) ↔ (0, x) ∈ empties (lay t).
Proof.
  intros Ht Hn. apply lay_wf in Ht as [_ Hs _ _ _]. cbn [lay empties]. rewrite elem_of_list_In, in_concat. split.
  - intros (l & Hl & Hin). apply elem_of_list_In in Hl, Hin. apply elem_of_list_fmap in Hl as (i & -> & _).
    unfold shift in Hin. apply elem_of_list_fmap in Hin as ([o y] & [= E ->] & Hin). cbn in *. assert (o = 0) as -> by lia. done.
  - intros Hin. exists (shift (N.of_nat 0 * size (lay t)) (empties (lay t))). rewrite <-!elem_of_list_In. split.
    + apply elem_of_list_fmap. exists 0%nat. split; [done|]. apply elem_of_seq. lia.
    + unfold shift. apply elem_of_list_fmap. by exists (0, x).
Qed.

(** ** Types of the library *)
Section lib.
Context (P : lib → Prop).
Lemma lib_rect' :
  (∀ s a d r, P (Base s a d r)) → P Vec → P Str → P ARef → P SRef → P ORef → P FRef → (∀ n, P (VRef n)) → (∀ n, P (Bits n)) →
  (∀ e, P e → P (Opt e)) → (∀ es, Forall P es → P (Var es)) → (∀ e n, P e → P (Array e n)) → (∀ es, Forall P es → P (Tup es)) →
  ∀ t, P t.
Proof.
  intros HB ? ? ? ? ? ? HVR HBits HO HV HA HT.
  fix go 1. intros [s a d r| | | | | | |n|n|e|es|e n|es].
  - apply HB.
  - clear go. done.
  - clear go. done.
  - clear go. done.
  - clear go. done.
  - clear go. done.
  - clear go. done.
  - apply HVR.
  - apply HBits.
  - apply HO, go.
  - apply HV. induction es as [|e es IH]; constructor; [apply go|exact IH].
  - apply HA, go.
  - apply HT. induction es as [|e es IH]; constructor; [apply go|exact IH].
Qed.
End lib.

Section library.
Context `{T : Target} (Hok : target_ok).
Lemma erase_tuple_storage ts : erase (a_tuple_storage ts) = tuple_storage (map erase ts).
Proof. induction ts as [|t ts IH]; [done|]. cbn. by rewrite IH. Qed.
Lemma erase_variant_storage ts : erase (a_variant_storage ts) = variant_storage (map erase ts).
Proof. induction ts as [|t ts IH]; [done|]. cbn. by rewrite IH. Qed.
Lemma erase_variant_ref_storage n : erase (a_variant_ref_storage n) = variant_ref_storage n.
Proof. induction n as [|n IH]; [done|]. cbn. by rewrite IH. Qed.
(** the classes are those of LayoutModel.v *)
Lemma erase_library t n m ts :
  erase a_vector = vector_t ∧ erase a_string = string_t ∧ erase a_array_ref = array_ref_t ∧ erase a_string_ref = string_ref_t ∧
  erase a_optional_ref = optional_ref_t ∧ erase a_function_ref = function_ref_t ∧ erase (a_variant_ref m) = variant_ref_t m ∧
  erase (a_bitset n) = bitset_t n ∧ erase (a_optional t) = optional_t (erase t) ∧ erase (a_array t n) = array_t (erase t) n ∧
  erase (a_variant ts) = variant_t (map erase ts) ∧ erase (a_tuple ts) = tuple_t (map erase ts).
Proof.
  split_and!; try done.
  - cbn. by rewrite erase_variant_ref_storage.
  - unfold a_bitset, bitset_t. cbn. by destruct (decide (n = 0)).
  - unfold a_array, array_t. cbn. by destruct (decide (n = 0)).
  - cbn. by rewrite erase_variant_storage.
  - cbn. by rewrite erase_tuple_storage.
Qed.
Lemma proper_Forall es : foldr and True (map proper es) ↔ Forall proper es.
Proof. induction es as [|m ms IH]; cbn; [done|]. rewrite IH. by rewrite Forall_cons. Qed.
Lemma portable_Forall es : foldr and True (map portable es) ↔ Forall portable es.
Proof. induction es as [|m ms IH]; cbn; [done|]. rewrite IH. by rewrite Forall_cons. Qed.

Lemma uchar_wf : wf UChar.
Proof. split_and!; [by exists 0|done|apply N.divide_refl]. Qed.
Lemma bits_pos n : n ≠ 0 → 0 < n / 8 + (if decide (n mod 8 = 0) then 0 else 1).
Proof.
  intros Hn. pose proof (N.div_mod n 8 ltac:(done)) as Hd.
  destruct (decide (n mod 8 = 0)); revert Hd; generalize dependent (n mod 8); generalize (n / 8); intros; lia.
Qed.
Lemma class_wf t : proper t → wf (erase (class_of t)).
Proof.
  pose proof (LayoutProps.ptr_wf Hok) as Hptr. pose proof uchar_wf as Hu. pose proof pow2_1 as H1.
  induction t as [s a d r| | | | | | |n|n|e IH|es IH|e n IH|es IH] using lib_rect'; cbn [class_of proper]; intros Hp.
  - cbn. naive_solver.
  - cbn; done.
  - assert (wf (Arr UChar (sso_size + 1))) as Hs by (split; [done|lia]).
    unfold a_string. cbn [erase map]. change (Opaque 1 1 true) with UChar. change (Opaque word word true) with Ptr.
    cbn [erase a_uchar a_ptr a_size]. change (Opaque 1 1 true) with UChar. change (Opaque word word true) with Ptr.
    revert Hs. generalize (Arr UChar (sso_size + 1)). intros x Hs. cbn [wf map foldr pack_ok]. done.
  - cbn; done.
  - cbn; done.
  - cbn; done.
  - cbn; done.
  - unfold a_variant_ref. cbn [erase map]. rewrite erase_variant_ref_storage. cbn [wf map foldr pack_ok]. split_and!; try done.
    induction n as [|n IHn]; [done|]. cbn [variant_ref_storage wf map foldr pack_ok]. done.
  - unfold a_bitset. destruct (decide (n = 0)) as [|Hn]; [cbn; done|]. pose proof (bits_pos n Hn) as Hb.
    revert Hb. generalize (n / 8 + (if decide (n mod 8 = 0) then 0 else 1)). intros k Hk. cbn. done.
  - specialize (IH Hp). unfold a_optional. cbn [erase map wf foldr pack_ok]. done.
  - destruct Hp as [_ Hp]. apply proper_Forall in Hp. unfold a_variant. cbn [erase map]. rewrite erase_variant_storage. cbn [wf map foldr pack_ok].
    split_and!; try done. apply variant_storage_wf, Forall_map, Forall_map, Forall_forall. intros e He.
    rewrite Forall_forall in IH, Hp. auto.
  - specialize (IH Hp). unfold a_array. destruct (decide (n = 0)) as [|Hn]; [cbn; done|].
    assert (wf (Arr (erase (class_of e)) n)) as Ha by (split; [done|lia]).
    cbn [erase map]. remember (Arr (erase (class_of e)) n) as a. cbn. done.
  - apply proper_Forall in Hp. unfold a_tuple. cbn [erase map]. rewrite erase_tuple_storage. cbn [wf map foldr pack_ok].
    split_and!; try done. apply tuple_storage_wf, Forall_map, Forall_map, Forall_forall. intros e He.
    rewrite Forall_forall in IH, Hp. auto.
Qed.
Lemma classes_wf es : Forall proper es → Forall wf (map erase (map class_of es)).
Proof. intros Hp. apply Forall_map, Forall_map. eapply Forall_impl; [done|]. intros e He. by apply class_wf. Qed.

Lemma starts_variant_storage ts : Forall wf ts →
  (0, tuple_end) ∈ empties (lay (variant_storage ts)) ↔ ∃ t, t ∈ ts ∧ (0, tuple_end) ∈ empties (lay t).
Proof.
  induction 1 as [|t ts Ht Hts IH].
  - split; [|by intros (t & Hin%elem_of_nil & _)]. vm_compute. intros Hin. apply elem_of_list_singleton in Hin. congruence.
  - cbn [variant_storage]. pose proof (variant_storage_wf ts Hts) as Hw.
    rewrite first_empty_class; [|done|cbn [wf map foldr pack_ok]; done|constructor]. rewrite first_empty_union.
    split.
    + intros (m & Hm & Hin). apply elem_of_cons in Hm as [->|Hm]; [exists t; split; [left|done]|].
      apply elem_of_list_singleton in Hm as ->. apply IH in Hin as (t' & Ht' & Hin). exists t'. split; [by right|done].
    + intros (t' & Ht' & Hin). apply elem_of_cons in Ht' as [->|Ht']; [exists t; split; [left|done]|].
      exists (variant_storage ts). split; [right; left|]. apply IH. eauto.
Qed.
Lemma starts_iff t : proper t → (0, tuple_end) ∈ empties (lay (erase (class_of t))) ↔ starts_with_tuple t.
Proof.
  assert (∀ t, no_tuple t → (0, tuple_end) ∈ empties (lay t) ↔ False) as Hno.
  { intros c Hc. split; [|done]. by apply no_tuple_empties. }
  induction t as [s a d r| | | | | | |n|n|e IH|es IH|e n IH|es IH] using lib_rect'; intros Hp.
  all: pose proof (class_wf _ Hp) as Hwf; cbn [class_of proper] in *.
  - cbn. split; [by intros ?%elem_of_nil|inversion 1].
  - rewrite Hno; [|by vm_compute]. split; [done|inversion 1].
  - rewrite Hno; [|cbn; split_and!; done]. split; [done|inversion 1].
  - rewrite Hno; [|by vm_compute]. split; [done|inversion 1].
  - rewrite Hno; [|by vm_compute]. split; [done|inversion 1].
  - rewrite Hno; [|by vm_compute]. split; [done|inversion 1].
  - rewrite Hno; [|by vm_compute]. split; [done|inversion 1].
  - rewrite Hno; [split; [done|inversion 1]|]. unfold a_variant_ref. cbn [erase map]. rewrite erase_variant_ref_storage.
    cbn [no_tuple map foldr]. split_and!; try done. clear. induction n as [|n IHn]; [done|]. cbn [variant_ref_storage no_tuple map foldr]. done.
  - rewrite Hno; [split; [done|inversion 1]|]. unfold a_bitset. destruct (decide (n = 0)); cbn; done.
  - unfold a_optional in *. cbn [erase map] in *. pose proof (class_wf e Hp) as He. rewrite first_empty_class; [|apply pow2_1| |].
    + rewrite first_empty_union. specialize (IH Hp). split.
      * intros (m & ->%elem_of_list_singleton & Hin). constructor. by apply IH.
      * inversion 1; subst. exists (erase (class_of e)). split; [left|by apply IH].
    + cbn [wf map foldr pack_ok]. split_and!; try done. apply pow2_1.
    + constructor; [apply uchar_wf|constructor].
  - destruct Hp as [_ Hp]. apply proper_Forall in Hp. pose proof (classes_wf es Hp) as Hws.
    unfold a_variant in *. cbn [erase map] in *. rewrite erase_variant_storage in *.
    rewrite first_empty_class; [|apply pow2_1|by apply variant_storage_wf|constructor; [apply uchar_wf|constructor]].
    rewrite starts_variant_storage by done. rewrite Forall_forall in IH, Hp. split.
    + intros (c & Hc & Hin). rewrite map_map in Hc. change (map (λ x, erase (class_of x)) es) with ((λ x, erase (class_of x)) <$> es) in Hc.
      apply elem_of_list_fmap in Hc as (e & -> & He). econstructor; [done|]. apply IH; auto.
    + inversion 1; subst. exists (erase (class_of e)). split; [|apply IH; auto]. rewrite map_map.
      change (map (λ x, erase (class_of x)) es) with ((λ x, erase (class_of x)) <$> es). apply elem_of_list_fmap. eauto.
  - unfold a_array in *. destruct (decide (n = 0)) as [->|Hn].
    + cbn [erase map] in *. rewrite Hno; [|by vm_compute]. split; [done|]. by inversion 1.
    + cbn [erase map] in *. pose proof (class_wf e Hp) as He. specialize (IH Hp).
      rewrite first_empty_class; [|done|split; [done|lia]|constructor]. rewrite first_empty_array by (done || lia). rewrite IH.
      split; [by constructor|]. by inversion 1.
  - apply proper_Forall in Hp. unfold a_tuple in *. cbn [erase map] in *. rewrite erase_tuple_storage in *.
    split; [constructor|]. intros _. by destruct (tuple_lay _ (classes_wf es Hp)) as (_ & _ & _ & ?).
Qed.

(** what is required of the library's types *)
Lemma foldr_max_1 {X} (f : X → N) l b : 1 ≤ b → (1 < foldr N.max b (f <$> l) ↔ 1 < b ∨ ∃ x, x ∈ l ∧ 1 < f x).
Proof.
  intros Hb. induction l as [|x l IH]; cbn [fmap list_fmap foldr].
  - split; [auto|]. intros [|(x & Hx & _)]; [done|]. by apply elem_of_nil in Hx.
  - rewrite N.max_lt_iff, IH. split.
    + intros [Hx|[Hx|(y & Hy & Hl)]]; [right; exists x; split; [left|done]|auto|right; exists y; split; [by right|done]].
    + intros [Hx|(y & Hy & Hl)]; [auto|]. apply elem_of_cons in Hy as [->|Hy]; eauto.
Qed.
Lemma foldr_max_ge1 {X} (f : X → N) l b : 1 ≤ b → 1 ≤ foldr N.max b (f <$> l).
Proof. intros Hb. induction l as [|x l IH]; cbn [fmap list_fmap foldr]; lia. Qed.
Lemma tuple_required ts : 1 ≤ ms_required (ms_lay (a_tuple_storage ts)) ∧
  (1 < ms_required (ms_lay (a_tuple_storage ts)) ↔ ∃ t, t ∈ ts ∧ 1 < ms_required (ms_lay t)).
Proof.
  induction ts as [|t ts [IH1 IH]].
  - split; [done|]. split; [done|]. by intros (t & Ht%elem_of_nil & _).
  - cbn [a_tuple_storage]. rewrite derived_required. split; [by apply foldr_max_ge1|].
    rewrite foldr_max_1, IH by done. split.
    + intros [(x & Hx & Hl)|(x & ->%elem_of_list_singleton & Hl)]; [exists x; split; [by right|done]|exists t; split; [left|done]].
    + intros (x & [->|Hx]%elem_of_cons & Hl); [right; exists t; split; [left|done]|left; eauto].
Qed.
Lemma variant_required ts : 1 < ms_required (ms_lay (a_variant_storage ts)) ↔ ∃ t, t ∈ ts ∧ 1 < ms_required (ms_lay t).
Proof.
  induction ts as [|t ts IH].
  - split; [done|]. by intros (t & Ht%elem_of_nil & _).
  - cbn [a_variant_storage]. rewrite class_required, foldr_max_1 by done. split.
    + intros [?|(x & ->%elem_of_list_singleton & Hl)]; [done|]. rewrite union_required, foldr_max_1 in Hl by done.
      destruct Hl as [?|(x & Hx & Hl)]; [done|]. apply elem_of_cons in Hx as [->|Hx]; [exists t; split; [left|done]|].
      apply elem_of_list_singleton in Hx as ->. apply IH in Hl as (y & Hy & Hl). exists y. split; [by right|done].
    + intros (x & Hx & Hl). right. eexists. split; [left|]. rewrite union_required, foldr_max_1 by done. right.
      apply elem_of_cons in Hx as [->|Hx]; [exists t; split; [left|done]|]. exists (a_variant_storage ts). split; [right; left|]. apply IH. eauto.
Qed.
Lemma required_iff t : 1 < ms_required (ms_lay (class_of t)) ↔ overaligned t.
Proof.
  induction t as [s a d r| | | | | | |n|n|e IH|es IH|e n IH|es IH] using lib_rect'; cbn [class_of].
  2-7: (split; [|inversion 1]; intros Hl; exfalso; cbn in Hl; lia).
  - cbn. split; [by constructor|]. by inversion 1.
  - split; [|inversion 1]. unfold a_variant_ref. rewrite class_required, foldr_max_1 by done.
    intros [?|(x & [->|Hx]%elem_of_cons & Hl)]; [done| |by apply elem_of_list_singleton in Hx as ->].
    exfalso. induction n as [|n IHn]; [done|]. cbn [a_variant_ref_storage] in Hl. rewrite class_required, foldr_max_1 in Hl by done.
    destruct Hl as [?|(x & ->%elem_of_list_singleton & Hl)]; [done|]. rewrite union_required, foldr_max_1 in Hl by done.
    destruct Hl as [?|(x & [->|Hx]%elem_of_cons & Hl)]; [done|done|]. by apply elem_of_list_singleton in Hx as ->.
  - split; [|inversion 1]. unfold a_bitset. rewrite class_required, foldr_max_1 by done.
    intros [?|(x & ->%elem_of_list_singleton & Hl)]; [done|]. by destruct (decide (n = 0)).
  - unfold a_optional. rewrite class_required, foldr_max_1 by done. split.
    + intros [?|(x & [->|Hx]%elem_of_cons & Hl)]; [done| |by apply elem_of_list_singleton in Hx as ->].
      rewrite union_required, foldr_max_1 in Hl by done. destruct Hl as [?|(x & ->%elem_of_list_singleton & Hl)]; [done|].
      constructor. by apply IH.
    + inversion 1; subst. right. eexists. split; [left|]. rewrite union_required, foldr_max_1 by done. right. eexists. split; [left|]. by apply IH.
  - unfold a_variant. rewrite class_required, foldr_max_1 by done. rewrite Forall_forall in IH. split.
    + intros [?|(x & [->|Hx]%elem_of_cons & Hl)]; [done| |by apply elem_of_list_singleton in Hx as ->].
      apply variant_required in Hl as (c & Hc & Hl). change (map class_of es) with (class_of <$> es) in Hc.
      apply elem_of_list_fmap in Hc as (e & -> & He). econstructor; [done|]. by apply IH.
    + inversion 1; subst. right. eexists. split; [left|]. apply variant_required. exists (class_of e). split; [|by apply IH].
      apply elem_of_list_fmap. eauto.
  - unfold a_array. rewrite class_required, foldr_max_1 by done. split.
    + intros [?|(x & ->%elem_of_list_singleton & Hl)]; [done|]. destruct (decide (n = 0)); [done|]. constructor; [done|]. by apply IH.
    + inversion 1; subst. right. eexists. split; [left|]. rewrite decide_False by done. by apply IH.
  - unfold a_tuple. rewrite class_required, foldr_max_1 by done. rewrite Forall_forall in IH. split.
    + intros [?|(x & ->%elem_of_list_singleton & Hl)]; [done|].
      apply tuple_required in Hl as (c & Hc & Hl). change (map class_of es) with (class_of <$> es) in Hc.
      apply elem_of_list_fmap in Hc as (e & -> & He). econstructor; [done|]. by apply IH.
    + inversion 1; subst. right. eexists. split; [left|]. apply tuple_required. exists (class_of e). split; [|by apply IH].
      apply elem_of_list_fmap. eauto.
Qed.

(** ** Portable types are the same under both *)
Definition good (c : aty) : Prop := wf (erase c) ∧ sim c ∧ same_layout c.
Lemma good_opaque s a d r : wf (Opaque s a d) → r ≤ a → good (AOpaque s a d r).
Proof. intros ? ?. split_and!; [done|by apply opaque_sim|done]. Qed.
Lemma good_array c n : 0 < n → good c → good (AArr c n).
Proof. intros Hn (Hw & Hs & Hl). pose proof (array_sim c n Hs). split_and!; [cbn; done|done|by apply same_array]. Qed.
Lemma packed_1 c : good c → ms_required (ms_lay c) ≤ 1 → ms_required (ms_lay c) ≤ packed (Some 1) (ms_align (ms_lay c)).
Proof. intros (Hw & [_ Ha _ _] & _) Hr. apply lay_wf in Hw as [Hp _ _ _ _]. apply pow2_pos in Hp. unfold alignof in Ha. cbn. lia. Qed.
Lemma packed_none c : good c → ms_required (ms_lay c) ≤ packed None (ms_align (ms_lay c)).
Proof. by intros (_ & [_ _ _ ?] & _). Qed.
Lemma good_class nm p cs : pack_ok p → cs ≠ [] → Forall (λ c, good c ∧ ms_required (ms_lay c) ≤ packed p (ms_align (ms_lay c))) cs → good (ACls nm p None cs).
Proof.
  intros Hp Hne Hcs.
  assert (Forall wf (map erase cs)) as Hw. { apply Forall_map. eapply Forall_impl; [done|]. by intros c [(? & _) _]. }
  destruct (class_sim nm p cs) as [Hs _]; [done|done|done|eapply Forall_impl; [done|]; by intros c [(_ & ? & _) ?]|].
  split_and!; [|done|].
  - cbn [erase wf]. split_and!; [done|done|by apply wf_Forall].
  - apply same_class; [done|done|]. eapply Forall_impl; [done|]. by intros c [(_ & _ & ?) _].
Qed.
Lemma good_union p cs : pack_ok p → cs ≠ [] → Forall (λ c, good c ∧ ms_required (ms_lay c) ≤ packed p (ms_align (ms_lay c))) cs → good (AUni p cs).
Proof.
  intros Hp Hne Hcs.
  assert (Forall wf (map erase cs)) as Hw. { apply Forall_map. eapply Forall_impl; [done|]. by intros c [(? & _) _]. }
  pose proof (union_sim p cs) as Hs. feed specialize Hs; [done|done|done|eapply Forall_impl; [done|]; by intros c [(_ & ? & _) ?]|].
  split_and!; [|done|].
  - cbn [erase wf]. split_and!; [done|by destruct cs|by apply wf_Forall].
  - apply same_union; [done|]. eapply Forall_impl; [done|]. by intros c [(_ & _ & ?) _].
Qed.
Lemma good_plain_class nm cs : cs ≠ [] → Forall good cs → good (ACls nm None None cs).
Proof. intros Hne Hcs. apply good_class; [done|done|]. eapply Forall_impl; [done|]. intros c Hc. split; [done|by apply packed_none]. Qed.
Lemma good_plain_union cs : cs ≠ [] → Forall good cs → good (AUni None cs).
Proof. intros Hne Hcs. apply good_union; [done|done|]. eapply Forall_impl; [done|]. intros c Hc. split; [done|by apply packed_none]. Qed.
Lemma good_ptr : good a_ptr.
Proof. apply good_opaque; [apply (LayoutProps.ptr_wf Hok)|]. destruct Hok as [Hw _]. apply pow2_pos in Hw. lia. Qed.
Lemma good_uchar : good a_uchar.
Proof. by apply good_opaque; [apply uchar_wf|]. Qed.
Lemma good_tuple_storage cs : Forall (λ c, good c ∧ ms_required (ms_lay c) ≤ 1) cs →
  (∀ c, last cs = Some c → (0, tuple_end) ∉ empties (lay (erase c))) →
  good (a_tuple_storage cs) ∧ ms_required (ms_lay (a_tuple_storage cs)) ≤ 1 ∧ ms_base (ms_lay (a_tuple_storage cs)) = dsize (lay (erase (a_tuple_storage cs))).
Proof.
  induction 1 as [|c cs [Hc Hr] Hcs IH]; intros Hlast.
  - split_and!; [|done|done]. split_and!; [cbn; done|by constructor|cbn; done].
  - destruct IH as (Hg & Hgr & Hb). { intros c' Hc'. apply Hlast. rewrite last_cons. by rewrite Hc'. }
    assert (Forall wf (map erase cs)) as Hw. { apply Forall_map. eapply Forall_impl; [done|]. by intros x [(? & _) _]. }
    destruct (tuple_storage_lay _ Hw) as (Ha & Hd & _ & _). rewrite <-erase_tuple_storage in Ha, Hd.
    assert (wf (erase (a_tuple_storage (c :: cs)))) as Hwt.
    { rewrite erase_tuple_storage. apply tuple_storage_wf. cbn [map]. constructor; [apply Hc|done]. }
    assert (alignof (erase (a_tuple_storage (c :: cs))) = 1) as Hat.
    { rewrite erase_tuple_storage. apply tuple_storage_lay. cbn [map]. constructor; [apply Hc|done]. }
    cbn [a_tuple_storage] in *.
    destruct (derived_sim "internal_tuple::storage_t" (Some 1) (a_tuple_storage cs) [c]) as [Hs Hbase].
    + apply pow2_1.
    + apply Hg.
    + constructor; [apply Hc|constructor].
    + constructor; [|constructor]. split; [apply Hc|by apply packed_1].
    + apply Hg.
    + done.
    + by apply packed_1.
    + done.
    + intros E m [= <-]. destruct cs as [|c' cs].
      * apply not_true_is_false. intros Hcl%clash_true. destruct Hcl as (x & y & Hx & Hy & E1 & E2). cbn in Hx.
        apply elem_of_list_singleton in Hx as ->. destruct y as [o n]. cbn in E1, E2. subst n. assert (o = 0) as -> by lia. by apply (Hlast c).
      * exfalso. rewrite Hd in E. cbn [map fmap list_fmap sum foldr] in E. inversion Hw as [|? ? Hw' _]; subst. apply lay_wf in Hw' as [_ ? _ _ _].
        unfold sizeof in E. lia.
    + split_and!.
      * split_and!; [done|done|]. apply same_class; [done|intros ? [= <-]; apply Hg|]. constructor; [apply Hc|constructor].
      * rewrite derived_required. cbn [fmap list_fmap foldr]. lia.
      * rewrite Hbase, Hat. apply round_up_1.
Qed.
Lemma good_variant_storage cs : Forall good cs → good (a_variant_storage cs).
Proof.
  induction 1 as [|c cs Hc Hcs IH].
  - split_and!; [cbn; done|by constructor|cbn; done].
  - cbn [a_variant_storage]. apply good_plain_class; [done|]. constructor; [|constructor]. apply good_plain_union; [done|].
    constructor; [done|]. constructor; [done|constructor].
Qed.
Ltac all_good := repeat (apply Forall_cons_2; [assumption|]); apply Forall_nil_2.
Lemma portable_good t : proper t → portable t → good (class_of t).
Proof.
  pose proof good_ptr as Hptr. pose proof good_uchar as Huc.
  assert (∀ e, ¬ overaligned e → ms_required (ms_lay (class_of e)) ≤ 1) as Hreq.
  { intros e He. rewrite <-required_iff in He. lia. }
  induction t as [s a d r| | | | | | |n|n|e IH|es IH|e n IH|es IH] using lib_rect'; intros Hp Hport; cbn [class_of proper portable] in *.
  - apply good_opaque; [|naive_solver]. cbn. naive_solver.
  - apply good_plain_class; [done|]. constructor; [|constructor]. apply good_plain_class; [done|]. all_good.
  - apply good_plain_class; [done|]. constructor; [|constructor]. apply good_plain_class; [done|].
    constructor; [done|]. constructor; [|constructor]. apply good_plain_union; [done|]. constructor; [|constructor; [|constructor]].
    + apply good_plain_class; [done|]. constructor; [done|]. constructor; [|constructor]. apply good_array; [lia|done].
    + apply good_plain_class; [done|]. all_good.
  - apply good_plain_class; [done|]. all_good.
  - apply good_plain_class; [done|]. all_good.
  - apply good_plain_class; [done|]. all_good.
  - unfold a_function_ref. set (b := ACls "internal_function_ref::traits" None _ _). set (st := ACls "internal_function_ref::storage_t" None None _).
    assert (good b) as Hb. { split_and!; [cbn; done|by constructor|cbn; done]. }
    assert (good st) as Hst.
    { apply good_plain_class; [done|]. constructor; [|constructor]. apply good_plain_union; [done|]. all_good. }
    destruct (derived_sim "function_ref" None b [st; a_ptr]) as [Hs _].
    + done.
    + apply Hb.
    + constructor; [apply Hst|]. constructor; [apply Hptr|constructor].
    + constructor; [split; [apply Hst|by apply packed_none]|]. constructor; [split; [apply Hptr|by apply packed_none]|constructor].
    + apply Hb.
    + done.
    + by apply packed_none.
    + done.
    + intros _ m [= <-]. apply not_true_is_false. intros Hcl%clash_true. destruct Hcl as (x & y & Hx & Hy & E1 & _).
      assert (x.1 = 0) as Ex. { cbn in Hx. rewrite !elem_of_cons, elem_of_nil in Hx. destruct Hx as [->|[->|[]]]; done. }
      destruct y as [o n]. cbn in E1. assert (o = 0) as -> by lia. unfold st in Hy. cbn [erase map] in Hy.
      rewrite first_empty_class in Hy; [|done| |constructor].
      * rewrite first_empty_union in Hy. destruct Hy as (m & Hm & Hy). cbn [erase a_ptr] in Hm. rewrite !elem_of_cons, elem_of_nil in Hm.
        destruct Hm as [->|[->|[]]]; cbn in Hy; by apply elem_of_nil in Hy.
      * destruct Hptr as [Hw _]. cbn [wf foldr map pack_ok]. done.
    + split_and!; [|done|].
      * destruct Hb as [Hwb _], Hst as [Hws _], Hptr as [Hwp _]. cbn [erase map wf foldr pack_ok]. done.
      * apply same_class; [done|intros ? [= <-]; apply Hb|]. constructor; [apply Hst|]. constructor; [apply Hptr|constructor].
  - apply good_plain_class; [done|]. constructor; [|all_good].
    clear -Hptr. induction n as [|n IHn]; [split_and!; [cbn; done|by constructor|cbn; done]|]. cbn [a_variant_ref_storage].
    apply good_plain_class; [done|]. constructor; [|constructor]. apply good_plain_union; [done|]. all_good.
  - apply good_plain_class; [done|]. constructor; [|constructor]. destruct (decide (n = 0)) as [|Hn]; [done|]. apply good_array; [by apply bits_pos|done].
  - destruct Hport as [Hport Hna]. specialize (IH Hp Hport). specialize (Hreq e Hna).
    assert (good (AUni (Some 1) [class_of e])) as Hu.
    { apply good_union; [apply pow2_1|done|]. constructor; [|constructor]. split; [done|by apply packed_1]. }
    apply good_class; [apply pow2_1|done|]. constructor; [|constructor; [|constructor]].
    + split; [done|]. apply packed_1; [done|]. rewrite union_required. cbn [fmap list_fmap foldr]. lia.
    + split; [done|]. cbn. lia.
  - destruct Hp as [_ Hp]. apply proper_Forall in Hp. destruct Hport as [Hport Hna]. apply portable_Forall in Hport.
    assert (Forall good (map class_of es)) as Hg.
    { apply Forall_map. rewrite Forall_forall in *. auto. }
    apply good_variant_storage in Hg. apply good_class; [apply pow2_1|done|]. constructor; [|constructor; [|constructor]].
    + split; [done|]. apply packed_1; [done|]. destruct (N.le_gt_cases (ms_required (ms_lay (a_variant_storage (map class_of es)))) 1) as [|Hgt]; [done|].
      apply variant_required in Hgt as (c & Hc & Hl). change (map class_of es) with (class_of <$> es) in Hc.
      apply elem_of_list_fmap in Hc as (e & -> & He). specialize (Hreq e (Hna e He)). lia.
    + split; [done|]. cbn. lia.
  - apply good_plain_class; [done|]. constructor; [|constructor]. destruct (decide (n = 0)) as [|Hn]; [done|]. apply good_array; [lia|]. by apply IH; auto.
  - apply proper_Forall in Hp. destruct Hport as (Hport & Hna & Hlast). apply portable_Forall in Hport.
    destruct (good_tuple_storage (map class_of es)) as (Hg & _ & _).
    + apply Forall_map, Forall_forall. intros e He. rewrite Forall_forall in *. split; auto.
    + intros c Hc. change (map class_of es) with (class_of <$> es) in Hc. rewrite fmap_last in Hc.
      destruct (last es) as [e|] eqn:El; [|done]. injection Hc as <-. rewrite starts_iff; [by apply Hlast|].
      rewrite Forall_forall in Hp. apply Hp. by apply last_Some_elem_of.
    + apply good_plain_class; [done|]. all_good.
Qed.

(** ** ... and only these *)
Lemma class_members nm p b ms : same_layout (ACls nm p b ms) → Forall same_layout ms ∧ ∀ t, b = Some t → same_layout t.
Proof. cbn [same_layout]. rewrite same_Forall. intros (_ & _ & _ & Hb & Hms). split; [done|]. by intros t ->. Qed.
Lemma union_members p ms : same_layout (AUni p ms) → Forall same_layout ms.
Proof. cbn [same_layout]. rewrite same_Forall. by intros (_ & _ & _ & ?). Qed.
Lemma aligned_1 nm p b ms : same_layout (ACls nm p b ms) → alignof (erase (ACls nm p b ms)) = 1 → ¬ 1 < ms_required (ms_lay (ACls nm p b ms)).
Proof.
  intros (_ & Ha & _) H1. rewrite Ha in H1. cbn [ms_lay] in *.
  pose proof (finish_required p (foldl (ms_place p) match b with
    | Some b => MsLay (ms_base (ms_lay b)) (N.max 1 (ms_adjusted p (ms_lay b))) (ms_required (ms_lay b)) 0 []
    | None => MsLay 0 1 1 0 [] end (map ms_lay ms))) as Hr. lia.
Qed.
Lemma same_variant_storage cs : same_layout (a_variant_storage cs) → Forall same_layout cs.
Proof.
  induction cs as [|c cs IH]; [constructor|]. cbn [a_variant_storage]. intros [Hm _]%class_members.
  inversion Hm as [|? ? Hu _]; subst. apply union_members in Hu. inversion Hu as [|? ? Hc Hs]; subst. inversion Hs; subst. constructor; [done|]. by apply IH.
Qed.
Lemma same_tuple_storage cs : Forall wf (map erase cs) → same_layout (a_tuple_storage cs) →
  Forall same_layout cs ∧ ∀ c, last cs = Some c → (0, tuple_end) ∉ empties (lay (erase c)).
Proof.
  induction cs as [|c cs IH]; [by split; [constructor|]|]. intros Hw Hs. pose proof Hs as Hs'. cbn [a_tuple_storage] in Hs'.
  apply class_members in Hs' as [Hm Hb]. specialize (Hb _ eq_refl). inversion Hm as [|? ? Hc _]; subst.
  destruct (IH ltac:(by inversion Hw) Hb) as [IH1 IH2]. split; [by constructor|]. intros c' Hl. destruct cs as [|c'' cs].
  - injection Hl as <-. cbn [same_layout a_tuple_storage] in Hs. destruct Hs as (_ & _ & Ho & _).
    pose proof (tuple_offset_eq (map erase [c]) 0 Hw ltac:(cbn; lia)) as E. cbn [tuple_offset map] in E. unfold member_offset in E.
    cbn [erase a_tuple_storage map] in Ho. cbn [tuple_storage] in E. rewrite Ho in E.
    cbn [ms_lay a_tuple_storage map foldl ms_finish ms_offsets ms_place app lookup list_lookup ms_base ms_size] in E.
    rewrite round_up_same in E; [| |apply N.divide_0_r].
    + unfold extra in E. cbn [last] in E. intros Hin. rewrite decide_True in E by done. cbn [packed ms_align] in E. rewrite round_up_1 in E. injection E as E. lia.
    + inversion Hw as [|? ? Hwc _]; subst. apply lay_wf in Hwc as [Hp _ _ _ _]. apply pow2_pos in Hp.
      assert (alignof (erase c) = ms_align (ms_lay c)) as Ha by (destruct c; apply Hc). unfold alignof in Ha.
      unfold ms_adjusted. cbn [packed]. lia.
  - apply IH2. done.
Qed.
Lemma same_portable t : proper t → same_layout (class_of t) → portable t.
Proof.
  induction t as [s a d r| | | | | | |n|n|e IH|es IH|e n IH|es IH] using lib_rect'; intros Hp Hs; cbn [proper portable] in *; try done.
  - assert (¬ overaligned (Opt e)) as Ho.
    { rewrite <-required_iff. apply aligned_1; [done|]. apply (optional_lay (erase (class_of e))). by apply class_wf. }
    cbn [class_of] in Hs. apply class_members in Hs as [Hm _]. inversion Hm as [|? ? Hu _]; subst. apply union_members in Hu. inversion Hu; subst.
    split; [by apply IH|]. intros He. apply Ho. by constructor.
  - destruct Hp as [_ Hp]. apply proper_Forall in Hp. pose proof (classes_wf es Hp) as Hw.
    assert (¬ overaligned (Var es)) as Ho.
    { rewrite <-required_iff. apply aligned_1; [done|]. cbn [erase map]. rewrite erase_variant_storage. by apply variant_lay. }
    cbn [class_of] in Hs. apply class_members in Hs as [Hm _]. inversion Hm as [|? ? Hv _]; subst. apply same_variant_storage in Hv.
    rewrite Forall_map in Hv. split; [|intros e He Hov; apply Ho; by econstructor].
    apply portable_Forall. rewrite Forall_forall in *. intros e He. apply IH; [done|auto|]. by apply Hv.
  - intros Hn. cbn [class_of] in Hs. unfold a_array in Hs. rewrite decide_False in Hs by done. apply class_members in Hs as [Hm _].
    inversion Hm as [|? ? Ha _]; subst. cbn [same_layout] in Ha. destruct Ha as (_ & _ & _ & Ha). by apply IH.
  - apply proper_Forall in Hp. pose proof (classes_wf es Hp) as Hw.
    assert (¬ overaligned (Tup es)) as Ho.
    { rewrite <-required_iff. apply aligned_1; [done|]. cbn [erase map]. rewrite erase_tuple_storage. by apply tuple_lay. }
    cbn [class_of] in Hs. apply class_members in Hs as [Hm _]. inversion Hm as [|? ? Hv _]; subst. apply same_tuple_storage in Hv as [Hv Hl]; [|done].
    rewrite Forall_map in Hv. split_and!.
    + apply portable_Forall. rewrite Forall_forall in *. intros e He. apply IH; [done|auto|]. by apply Hv.
    + intros e He Hov. apply Ho. by econstructor.
    + intros e He. rewrite <-starts_iff; [|rewrite Forall_forall in Hp; apply Hp; by apply last_Some_elem_of].
      apply Hl. change (map class_of es) with (class_of <$> es). rewrite fmap_last, He. done.
Qed.

(** ** By how much tuples differ *)
Lemma ms_tuple_storage cs : Forall (λ c, ms_required (ms_lay c) ≤ 1 ∧ 1 ≤ ms_align (ms_lay c)) cs →
  let l := ms_lay (a_tuple_storage cs) in
  ms_base l = sum (ms_size ∘ ms_lay <$> cs) ∧ ms_size l = N.max 1 (ms_base l) ∧ ms_align l = 1 ∧ ms_required l = 1.
Proof.
  induction 1 as [|c cs [Hr Ha] _ (IHb & IHs & IHa & IHr)]; intros l; [done|]. subst l. cbn [a_tuple_storage].
  set (b := a_tuple_storage cs) in *. clearbody b. cbn [ms_lay map foldl ms_place ms_finish ms_base ms_size ms_align ms_required].
  assert (ms_adjusted (Some 1) (ms_lay b) = 1) as Eb by (unfold ms_adjusted; cbn [packed]; lia).
  assert (ms_adjusted (Some 1) (ms_lay c) = 1) as Ec by (unfold ms_adjusted; cbn [packed]; lia).
  rewrite Eb, Ec, IHr. replace (N.max 1 (ms_required (ms_lay c))) with 1 by lia. change (packed (Some 1) (N.max (N.max 1 1) 1)) with 1.
  change (N.max 1 1) with 1. rewrite !round_up_1, IHb. cbn [fmap list_fmap]. change ((ms_size ∘ ms_lay) c) with (ms_size (ms_lay c)).
  change (sum (ms_size (ms_lay c) :: (ms_size ∘ ms_lay <$> cs))) with (ms_size (ms_lay c) + sum (ms_size ∘ ms_lay <$> cs)).
  generalize (sum (ms_size ∘ ms_lay <$> cs)). intros k. split_and!; try done; try lia.
  destruct (N.eqb_spec (k + ms_size (ms_lay c)) 0); lia.
Qed.
Lemma ms_tuple cs : Forall (λ c, ms_required (ms_lay c) ≤ 1 ∧ 1 ≤ ms_align (ms_lay c)) cs →
  ms_size (ms_lay (a_tuple cs)) = N.max 1 (sum (ms_size ∘ ms_lay <$> cs)).
Proof.
  intros Hcs. destruct (ms_tuple_storage cs Hcs) as (Hb & Hs & Ha & Hr). unfold a_tuple. revert Hs Ha Hr. rewrite Hb.
  set (b := a_tuple_storage cs). clearbody b. intros Hs Ha Hr. cbn [ms_lay map foldl ms_place ms_finish ms_size ms_align ms_required].
  assert (ms_adjusted None (ms_lay b) = 1) as Eb by (unfold ms_adjusted; cbn [packed]; lia). rewrite Eb, Hr, Hs.
  change (N.max 1 1) with 1. change (packed None 1) with 1. change (N.max 1 1) with 1. rewrite !round_up_1.
  destruct (N.eqb_spec (0 + N.max 1 (sum (ms_size ∘ ms_lay <$> cs))) 0); lia.
Qed.
Lemma tuple_larger es e : Forall proper es → Forall portable es → Forall (λ e, ¬ overaligned e) es → last es = Some e → starts_with_tuple e →
  sizeof (erase (class_of (Tup es))) = ms_size (ms_lay (class_of (Tup es))) + 1.
Proof.
  intros Hp Hport Hna Hl Hst. pose proof (classes_wf es Hp) as Hw.
  assert (Forall (λ c, good c ∧ ms_required (ms_lay c) ≤ 1) (map class_of es)) as Hg.
  { apply Forall_map. rewrite Forall_forall in *. intros x Hx. split; [by apply portable_good; auto|].
    specialize (Hna x Hx). rewrite <-required_iff in Hna. lia. }
  cbn [class_of]. rewrite ms_tuple.
  2: { eapply Forall_impl; [exact Hg|]. intros c [(Hwc & [_ Ha _ _] & _) Hr]. split; [done|]. rewrite <-Ha. apply lay_wf in Hwc as [Hpw _ _ _ _].
    apply pow2_pos in Hpw. unfold alignof. lia. }
  cbn [erase a_tuple map]. rewrite erase_tuple_storage. destruct (tuple_lay _ Hw) as (_ & Hs & _). unfold tuple_t in Hs. rewrite Hs.
  assert (extra (map erase (map class_of es)) = 1) as ->.
  { unfold extra. change (map erase (map class_of es)) with (erase <$> (class_of <$> es)). rewrite !fmap_last, Hl. cbn [fmap option_fmap option_map].
    rewrite decide_True; [done|]. apply starts_iff; [|done]. rewrite Forall_forall in Hp. apply Hp. by apply last_Some_elem_of. }
  assert (sizeof <$> map erase (map class_of es) = ms_size ∘ ms_lay <$> map class_of es) as ->.
  { clear -Hg. induction Hg as [|c cs [(_ & [Hs _ _ _] & _) _] _ IH]; [done|]. cbn [map fmap list_fmap]. by rewrite Hs, <-IH. }
  assert (1 ≤ sum (ms_size ∘ ms_lay <$> map class_of es)); [|lia].
  destruct es as [|x es]; [done|]. inversion Hg as [|? ? [(Hwx & [Hsx _ _ _] & _) _] _]; subst. apply lay_wf in Hwx as [_ Hpos _ _ _].
  cbn [map fmap list_fmap sum foldr]. unfold compose at 1. unfold sizeof in Hsx. unfold sum. cbn [foldr]. lia.
Qed.
End library.
