(** Proofs about layouts *)
From stdpp Require Import prelude strings.
From Verif Require Import LayoutModel LayoutSpec.
Local Open Scope N_scope.

Section ind.
Context (P : ty → Prop).
Context (POpaque : ∀ s a d, P (Opaque s a d)).
Context (PArr : ∀ t n, P t → P (Arr t n)).
Context (PCls : ∀ nm p b ms, (∀ t, b = Some t → P t) → Forall P ms → P (Cls nm p b ms)).
Context (PUni : ∀ p ms, Forall P ms → P (Uni p ms)).
Lemma ty_ind' t : P t.
Proof.
  revert t. fix go 1. intros [s a d|t n|nm p b ms|p ms].
  - apply POpaque.
  - apply PArr, go.
  - apply PCls; [intros t; destruct b as [b|]; [intros [= <-]; apply go|discriminate]|].
    induction ms as [|m ms IH]; constructor; [apply go|exact IH].
  - apply PUni. induction ms as [|m ms IH]; constructor; [apply go|exact IH].
Qed.
End ind.

(** ** Arithmetic *)
Lemma pow2_pos a : pow2 a → 0 < a.
Proof. intros [k ->]. assert (2 ^ k ≠ 0) by (by apply N.pow_nonzero). lia. Qed.
Lemma pow2_1 : pow2 1.
Proof. by exists 0. Qed.
Lemma pow2_divide a b : pow2 a → pow2 b → a ≤ b → (a | b).
Proof.
  intros [k ->] [j ->] Hle. destruct (decide (k ≤ j)) as [H|H].
  - exists (2 ^ (j - k)). rewrite <-N.pow_add_r. f_equal. lia.
  - assert (2 ^ j < 2 ^ k) by (apply N.pow_lt_mono_r; lia). lia.
Qed.
Lemma pow2_min a b : pow2 a → pow2 b → pow2 (N.min a b).
Proof. intros. destruct (N.min_dec a b) as [->| ->]; done. Qed.
Lemma pow2_max a b : pow2 a → pow2 b → pow2 (N.max a b).
Proof. intros. destruct (N.max_dec a b) as [->| ->]; done. Qed.
Lemma packed_pow2 p a : pack_ok p → pow2 a → pow2 (packed p a).
Proof. destruct p as [p|]; [apply pow2_min|done]. Qed.

Lemma round_up_divide o a : (a | round_up o a).
Proof. by exists ((o + a - 1) / a). Qed.
Lemma round_up_ge o a : 0 < a → o ≤ round_up o a.
Proof.
  intros Ha. unfold round_up.
  pose proof (N.div_mod (o + a - 1) a ltac:(lia)). pose proof (N.mod_lt (o + a - 1) a ltac:(lia)).
  rewrite (N.mul_comm _ a). lia.
Qed.
Lemma round_up_same o a : 0 < a → (a | o) → round_up o a = o.
Proof.
  intros Ha [q ->]. unfold round_up.
  replace (q * a + a - 1) with (q * a + (a - 1)) by lia.
  rewrite N.div_add_l by lia. rewrite (N.div_small (a - 1) a) by lia. lia.
Qed.
Lemma round_up_1 o : round_up o 1 = o.
Proof. apply round_up_same; [lia|]. apply N.divide_1_l. Qed.
Lemma round_up_least o a x : 0 < a → (a | x) → o ≤ x → round_up o a ≤ x.
Proof.
  intros Ha [q ->] H. unfold round_up. apply N.mul_le_mono_r.
  enough ((o + a - 1) / a < q + 1) by lia.
  apply N.div_lt_upper_bound; lia.
Qed.
Lemma round_up_same_iff o a : 0 < a → round_up o a = o ↔ (a | o).
Proof. intros Ha. split; [|by apply round_up_same]. intros <-. apply round_up_divide. Qed.

(** ** Placing members *)
Lemma find_place_ge fuel xs ys a o : o ≤ find_place fuel xs ys a o.
Proof. revert o. induction fuel as [|fuel IH]; intros o; cbn; [done|]. case_match; [|done]. specialize (IH (o + a)). lia. Qed.
Lemma find_place_divide fuel xs ys a o : (a | o) → (a | find_place fuel xs ys a o).
Proof.
  revert o. induction fuel as [|fuel IH]; intros o H; cbn; [done|]. case_match; [|done].
  apply IH, N.divide_add_r; [done|apply N.divide_refl].
Qed.
Lemma find_place_no_clash fuel xs ys a o : clash xs ys o = false → find_place (S fuel) xs ys a o = o.
Proof. intros H. cbn. by rewrite H. Qed.
Lemma clash_true xs ys o : clash xs ys o = true ↔ ∃ x y, x ∈ xs ∧ y ∈ ys ∧ o + y.1 = x.1 ∧ x.2 = y.2.
Proof.
  unfold clash. rewrite existsb_exists. split.
  - intros (x & Hx & H). apply existsb_exists in H as (y & Hy & H). exists x, y.
    apply andb_true_iff in H as [H1 H2]. apply N.eqb_eq in H1. apply String.eqb_eq in H2.
    rewrite !elem_of_list_In. done.
  - intros (x & y & Hx & Hy & H1 & H2). exists x. rewrite elem_of_list_In in Hx. split; [done|].
    apply existsb_exists. exists y. rewrite elem_of_list_In in Hy. split; [done|].
    apply andb_true_iff. rewrite N.eqb_eq, String.eqb_eq. done.
Qed.

(** a layout that satisfies the invariants of a complete type *)
Record lay_ok (l : layout) : Prop := LayOk {
  ok_align : pow2 (align l);
  ok_size : 0 < size l;
  ok_mult : (align l | size l);
  ok_dsize : dsize l ≤ size l;
  ok_empties : Forall (λ e, e.1 < N.max 1 (dsize l)) (empties l);
}.
(** ... of a class while its members are placed *)
Record part_ok (l : layout) : Prop := PartOk {
  part_align : pow2 (align l);
  part_empties : Forall (λ e, e.1 < N.max 1 (dsize l)) (empties l);
}.
Lemma empties_shift o l : lay_ok l → Forall (λ e, e.1 < o + size l) (shift o (empties l)).
Proof.
  intros [? Hs ? Hd He]. unfold shift. apply Forall_fmap. eapply Forall_impl; [done|]. intros e H. cbn in *. lia.
Qed.
Lemma place_ok p l m : pack_ok p → part_ok l → lay_ok m → part_ok (place p l m).
Proof.
  intros Hp [Ha He] Hm. pose proof Hm as [? ? ? ? _]. unfold place.
  set (o := find_place _ _ _ _ _).
  assert (dsize l ≤ o).
  { subst o. etrans; [|apply find_place_ge]. apply round_up_ge, pow2_pos, packed_pow2; [done|by apply ok_align]. }
  constructor; cbn.
  - apply pow2_max; [done|]. apply packed_pow2; [done|by apply ok_align].
  - apply Forall_app. split.
    + eapply Forall_impl; [done|]. intros e ?. cbn in *. lia.
    + eapply Forall_impl; [by apply empties_shift|]. intros e ?. cbn in *. lia.
Qed.
Lemma places_ok p l ms : pack_ok p → part_ok l → Forall lay_ok ms → part_ok (foldl (place p) l ms).
Proof.
  intros Hp Hl Hms. revert l Hl. induction Hms as [|m ms Hm Hms IH]; intros l Hl; cbn; [done|]. by apply IH, place_ok.
Qed.
Lemma wf_Forall ms : foldr and True (map wf ms) ↔ Forall wf ms.
Proof. induction ms as [|m ms IH]; cbn; [done|]. rewrite IH. by rewrite Forall_cons. Qed.
Lemma no_tuple_Forall ms : foldr and True (map no_tuple ms) ↔ Forall no_tuple ms.
Proof. induction ms as [|m ms IH]; cbn; [done|]. rewrite IH. by rewrite Forall_cons. Qed.

Lemma foldr_max_ge l x b : x ∈ l → x ≤ foldr N.max b l.
Proof. induction 1 as [x l|x y l _ IH]; cbn; lia. Qed.
Lemma foldr_max_pow2 l : Forall pow2 l → pow2 (foldr N.max 1 l).
Proof. induction 1 as [|x l Hx _ IH]; cbn; [apply pow2_1|by apply pow2_max]. Qed.

(** the layout of a class before its tail padding *)
Definition start (pack : option N) (base : option ty) : layout :=
  match base with
  | None => Lay 0 1 0 [] []
  | Some b => let l := lay b in Lay 0 (packed pack (align l)) (dsize l) [] (empties l)
  end.
Definition body (pack : option N) (base : option ty) (ms : list ty) : layout :=
  foldl (place pack) (start pack base) (map lay ms).
Lemma lay_cls nm p b ms :
  lay (Cls nm p b ms) = let r := body p b ms in
    Lay (round_up (N.max 1 (dsize r)) (align r)) (align r) (dsize r) (offsets r)
        (empties r ++ if dsize r =? 0 then [(0, nm)] else []).
Proof. done. Qed.
Lemma start_ok p b : pack_ok p → (∀ t, b = Some t → lay_ok (lay t)) → part_ok (start p b).
Proof.
  intros Hp Hb. destruct b as [b|]; cbn.
  - destruct (Hb b eq_refl). constructor; cbn; [by apply packed_pow2|done].
  - constructor; cbn; [apply pow2_1|done].
Qed.
Lemma lay_wf t : wf t → lay_ok (lay t).
Proof.
  induction t as [s a d|t n IH|nm p b ms IHb IH|p ms IH] using ty_ind'.
  - intros (Ha & Hs & Hd). constructor; cbn; try done.
  - intros [Ht Hn]. cbn [wf] in Ht. specialize (IH Ht) as [Ha Hs Hd Hz He]. constructor; cbn.
    + done.
    + nia.
    + by apply N.divide_mul_r.
    + done.
    + apply Forall_concat, Forall_fmap, Forall_forall. intros i Hi. cbn.
      apply elem_of_seq in Hi. unfold shift. apply Forall_fmap. eapply Forall_impl; [done|]. intros e He'. cbn in *.
      assert (N.of_nat i + 1 ≤ n) by lia. nia.
  - intros (Hp & Hb & Hms). apply wf_Forall in Hms.
    assert (Forall lay_ok (map lay ms)) as Hl.
    { clear -IH Hms. induction ms as [|m ms IHms]; cbn; constructor; inversion IH; inversion Hms; auto. }
    assert (part_ok (start p b)) as Hst.
    { apply start_ok; [done|]. intros t ->. by apply IHb. }
    pose proof (places_ok p _ _ Hp Hst Hl) as [Hra Hre]. fold (body p b ms) in Hra, Hre.
    rewrite lay_cls. set (r := body p b ms) in *. clearbody r. pose proof (pow2_pos _ Hra).
    pose proof (round_up_ge (N.max 1 (dsize r)) (align r)).
    constructor; cbn.
    + done.
    + lia.
    + apply round_up_divide.
    + lia.
    + apply Forall_app. split; [done|]. destruct (N.eqb_spec (dsize r) 0) as [E|E]; [|constructor].
      apply Forall_singleton. cbn. lia.
  - intros (Hp & Hne & Hms). apply wf_Forall in Hms.
    assert (Forall lay_ok (map lay ms)) as Hl.
    { clear -IH Hms. induction ms as [|m ms IHms]; cbn; constructor; inversion IH; inversion Hms; auto. }
    cbn. set (ls := map lay ms) in *. clearbody ls.
    set (a := foldr N.max 1 _). assert (pow2 a) as Ha.
    { apply foldr_max_pow2, Forall_fmap. eapply Forall_impl; [done|]. intros l [? _ _ _ _]. cbn. by apply packed_pow2. }
    pose proof (pow2_pos _ Ha).
    pose proof (round_up_ge (N.max 1 (foldr N.max 0 (size <$> ls))) a).
    constructor; cbn.
    + done.
    + lia.
    + apply round_up_divide.
    + done.
    + apply Forall_concat, Forall_fmap, Forall_forall. intros l Hin. cbn.
      rewrite Forall_forall in Hl. destruct (Hl l Hin) as [? ? ? ? He]. eapply Forall_impl; [done|]. intros e He'. cbn in *.
      assert (size l ≤ foldr N.max 0 (size <$> ls)) by (apply foldr_max_ge, elem_of_list_fmap; eauto). lia.
Qed.

(** ** Members in order *)
Lemma in_order_weaken total from from' l : from' ≤ from → in_order total from l → in_order total from' l.
Proof. intros H. inversion 1; subst; constructor; [lia|lia|done]. Qed.
Lemma in_order_total total total' from l : total ≤ total' → in_order total from l → in_order total' from l.
Proof. intros H. induction 1; constructor; [lia|done..]. Qed.
Lemma places_in_order p ms : pack_ok p → Forall lay_ok ms → ∀ l, part_ok l →
  ∃ os, offsets (foldl (place p) l ms) = offsets l ++ os ∧
    length os = length ms ∧
    in_order (dsize (foldl (place p) l ms)) (dsize l) (zip os (size <$> ms)) ∧
    Forall2 (λ o m, (packed p (align m) | o)) os ms ∧
    align l ≤ align (foldl (place p) l ms) ∧
    Forall (λ m, packed p (align m) ≤ align (foldl (place p) l ms)) ms.
Proof.
  intros Hp Hms. induction Hms as [|m ms Hm Hms IH]; intros l Hl; cbn [foldl].
  - exists []. rewrite app_nil_r. split_and!; try done; constructor; done.
  - destruct (IH (place p l m)) as (os & E & Hlen & Ho & Hd & Ha & Has); [by apply place_ok|].
    set (r := foldl (place p) (place p l m) ms) in *. clearbody r.
    unfold place in E, Ho, Ha. cbn [offsets dsize align] in E, Ho, Ha.
    set (o := find_place _ _ _ _ _) in *.
    assert (pow2 (packed p (align m))) by (apply packed_pow2; [done|by apply ok_align]).
    assert (dsize l ≤ o) by (subst o; etrans; [|apply find_place_ge]; by apply round_up_ge, pow2_pos).
    assert ((packed p (align m) | o)) by (subst o; apply find_place_divide, round_up_divide).
    clearbody o.
    exists (o :: os). rewrite E. rewrite <-app_assoc. split_and!.
    + done.
    + cbn [length]. by rewrite Hlen.
    + rewrite fmap_cons. cbn [zip zip_with]. by constructor.
    + by constructor.
    + lia.
    + constructor; [lia|done].
Qed.
Lemma Forall_lay ms : Forall wf ms → Forall lay_ok (map lay ms).
Proof. induction 1; cbn; constructor; [by apply lay_wf|done]. Qed.
Definition base_end (b : option ty) : N := match b with Some b => dsize (lay b) | None => 0 end.
Lemma class_in_order nm p b ms :
  wf (Cls nm p b ms) →
  let t := Cls nm p b ms in
  length (offsets (lay t)) = length ms ∧
  in_order (sizeof t) (base_end b) (zip (offsets (lay t)) (sizeof <$> ms)) ∧
  (∀ i m o, ms !! i = Some m → member_offset t i = Some o → (packed p (alignof m) | o) ∧ (packed p (alignof m) | alignof t)).
Proof.
  intros Hwf t. pose proof (lay_wf _ Hwf) as Hok. pose proof Hwf as (Hp & Hb & Hms). apply wf_Forall in Hms.
  assert (part_ok (start p b)) as Hst.
  { apply start_ok; [done|]. intros t' ->. by apply lay_wf. }
  destruct (places_in_order p (map lay ms) Hp (Forall_lay _ Hms) _ Hst) as (os & E & Hlen & Ho & Hd & Ha & Has).
  fold (body p b ms) in E, Ho, Ha, Has. unfold sizeof, alignof, member_offset, t. rewrite lay_cls.
  assert (offsets (start p b) = []) as E0 by by destruct b. rewrite E0 in E. cbn [app] in E.
  assert (dsize (start p b) = base_end b) as E1 by by destruct b. rewrite E1 in Ho.
  unfold t in Hok. rewrite lay_cls in Hok. destruct Hok as [Hok1 Hok2 Hok3 Hok4 Hok5]. cbn [size align dsize offsets] in *.
  rewrite E. rewrite map_length in Hlen. split_and!.
  - done.
  - eapply in_order_total; [exact Hok4|]. rewrite <-list_fmap_compose in Ho. done.
  - intros i m o Hm Hi. split.
    + rewrite Forall2_lookup in Hd. specialize (Hd i). rewrite Hi in Hd. change (map lay ms) with (lay <$> ms) in Hd.
      rewrite list_lookup_fmap, Hm in Hd. cbn in Hd. by inversion Hd.
    + apply pow2_divide; [|done|].
      * apply packed_pow2; [done|]. apply lay_wf. rewrite Forall_lookup in Hms. eauto.
      * rewrite Forall_forall in Has. apply (Has (lay m)). apply elem_of_list_fmap. exists m. split; [done|]. by eapply elem_of_list_lookup_2.
Qed.

(** ** Members without gaps *)
Lemma clash_nil_l ys o : clash [] ys o = false.
Proof. done. Qed.
Lemma clash_nil_r xs o : clash xs [] o = false.
Proof. unfold clash. by induction xs. Qed.
Lemma place_fits p l m : 0 < packed p (align m) → (packed p (align m) | dsize l) →
  empties l = [] ∨ empties m = [] →
  place p l m = Lay (size l) (N.max (align l) (packed p (align m))) (dsize l + size m) (offsets l ++ [dsize l])
                    (empties l ++ shift (dsize l) (empties m)).
Proof.
  intros Hpos Hd He. unfold place. rewrite round_up_same by done.
  rewrite find_place_no_clash; [done|]. destruct He as [->| ->]; [apply clash_nil_l|apply clash_nil_r].
Qed.
Lemma places_fit p a ms : 0 < a →
  Forall (λ m, packed p (align m) = a ∧ (a | size m) ∧ empties m = []) ms →
  ∀ l, (a | dsize l) →
  foldl (place p) l ms = Lay (size l) (match ms with [] => align l | _ => N.max (align l) a end) (dsize l + sum (size <$> ms))
    (offsets l ++ packed_from (dsize l) (size <$> ms)) (empties l).
Proof.
  intros Hpos. induction 1 as [|m ms (Ha & Hd & He) _ IH]; intros l Hl.
  - cbn. rewrite app_nil_r, N.add_0_r. by destruct l.
  - cbn [foldl]. rewrite place_fits; [|rewrite Ha; done..|by right]. rewrite Ha, IH.
    + rewrite He. cbn. rewrite app_nil_r, <-app_assoc. f_equal.
      * destruct ms; [done|]. lia.
      * unfold sum. lia.
    + cbn. by apply N.divide_add_r.
Qed.
(** one member *)
Lemma lay_single nm p m : wf m → pack_ok p →
  lay (Cls nm p None [m]) = let a := packed p (alignof m) in
    Lay (round_up (sizeof m) a) a (sizeof m) [0] (empties (lay m)).
Proof.
  intros Hm Hp. pose proof (lay_wf _ Hm) as [Ha Hs Hd Hz He]. rewrite lay_cls. unfold body. cbn [map foldl start].
  pose proof (packed_pow2 p _ Hp Ha) as Hpa. pose proof (pow2_pos _ Hpa) as Hpos.
  rewrite place_fits; [|done|by apply N.divide_0_r|by left]. cbn [size align dsize offsets empties app]. rewrite N.add_0_l.
  unfold sizeof, alignof. rewrite !(N.max_r 1) by lia.
  destruct (N.eqb_spec (size (lay m)) 0) as [E|_]; [lia|]. rewrite app_nil_r. f_equal.
  unfold shift. clear. induction (empties (lay m)) as [|[o n] l IH]; [done|]. rewrite fmap_cons. f_equal; exact IH.
Qed.
Lemma lay_wrap nm m : wf m → lay (Cls nm None None [m]) = Lay (sizeof m) (alignof m) (sizeof m) [0] (empties (lay m)).
Proof.
  intros Hm. rewrite lay_single by done. cbn [packed]. pose proof (lay_wf _ Hm) as [Ha Hs Hd Hz He].
  rewrite round_up_same; [done|by apply pow2_pos|done].
Qed.
(** members of the same alignment *)
Lemma lay_uniform nm p a ms : pow2 a → ms ≠ [] → Forall wf ms →
  Forall (λ m, packed p (alignof m) = a ∧ empties (lay m) = []) ms → (∀ m, m ∈ ms → (a | sizeof m)) →
  lay (Cls nm p None ms) = Lay (sum (sizeof <$> ms)) a (sum (sizeof <$> ms)) (packed_from 0 (sizeof <$> ms)) [].
Proof.
  intros Ha Hne Hwf Hms Hd. pose proof (pow2_pos _ Ha) as Hpos. rewrite lay_cls. unfold body.
  rewrite (places_fit p a).
  - cbn. change (map lay ms) with (lay <$> ms). rewrite <-!list_fmap_compose. change (size ∘ lay) with sizeof.
    destruct ms as [|m ms]; [done|]. cbn [fmap list_fmap].
    pose proof (Hd m ltac:(left)) as Hdm. inversion Hwf as [|? ? Hm _]; subst. apply lay_wf in Hm as [_ Hs _ _ _].
    fold (sizeof m) in Hs.
    assert (0 < sum (sizeof m :: (sizeof <$> ms))) by (cbn; lia).
    assert ((a | sum (sizeof m :: (sizeof <$> ms)))) as Hsum.
    { clear -Hd. change (sizeof m :: (sizeof <$> ms)) with (sizeof <$> (m :: ms)). revert Hd. generalize (m :: ms). clear.
      intros l. induction l as [|x l IH]; intros Hd; [apply N.divide_0_r|]. rewrite fmap_cons. cbn. apply N.divide_add_r; [apply Hd; left|].
      apply IH. intros y Hy. apply Hd. by right. }
    change (0 + sum (sizeof m :: (sizeof <$> ms))) with (sum (sizeof m :: (sizeof <$> ms))).
    destruct (N.eqb_spec (sum (sizeof m :: (sizeof <$> ms))) 0) as [E|_]; [lia|].
    rewrite !(N.max_r 1) by lia. rewrite round_up_same by done. done.
  - done.
  - apply Forall_fmap, Forall_forall. intros m Hm. cbn. rewrite Forall_forall in Hms. destruct (Hms m Hm). eauto.
  - apply N.divide_0_r.
Qed.

(** ** tuple *)
(** the last component starts with a ptl::tuple *)
Definition extra (ts : list ty) : N :=
  match last ts with
  | Some t => if decide ((0, tuple_end) ∈ empties (lay t)) then 1 else 0
  | None => 0
  end.
Lemma packed_1 a : pow2 a → packed (Some 1) a = 1.
Proof. intros H%pow2_pos. cbn. lia. Qed.
Lemma tuple_storage_wf ts : Forall wf ts → wf (tuple_storage ts).
Proof. induction 1; cbn; [done|]. split_and!; [apply pow2_1|done|done|done]. Qed.
Lemma sum_pos t ts : Forall wf (t :: ts) → 0 < sum (sizeof <$> t :: ts).
Proof. intros H. inversion H as [|? ? Ht _]; subst. apply lay_wf in Ht as [_ Hs _ _ _]. cbn. unfold sizeof. lia. Qed.
Lemma place_packed l m : pow2 (align m) → part_ok l → 0 < dsize l →
  place (Some 1) l m = Lay (size l) (N.max (align l) 1) (dsize l + size m) (offsets l ++ [dsize l]) (empties l ++ shift (dsize l) (empties m)).
Proof.
  intros Hm [_ He] Hd. unfold place. rewrite packed_1, round_up_1 by done. rewrite find_place_no_clash; [done|].
  destruct (clash (empties l) (empties m) (dsize l)) eqn:E; [|done].
  apply clash_true in E as (x & y & Hx & Hy & E & _). rewrite Forall_forall in He. specialize (He x Hx). cbn in He. lia.
Qed.
Lemma tuple_storage_lay ts : Forall wf ts →
  align (lay (tuple_storage ts)) = 1 ∧
  dsize (lay (tuple_storage ts)) = sum (sizeof <$> ts) + extra ts ∧
  sizeof (tuple_storage ts) = N.max 1 (sum (sizeof <$> ts) + extra ts) ∧
  (0, tuple_end) ∈ empties (lay (tuple_storage ts)).
Proof.
  induction 1 as [|t ts Ht Hts IH].
  - split_and!; try done. vm_compute. left.
  - destruct IH as (IHa & IHd & IHs & IHe). pose proof (tuple_storage_wf ts Hts) as Hb%lay_wf.
    pose proof (lay_wf _ Ht) as Hl. pose proof Hl as [Ha Hs _ _ He]. cbn [tuple_storage]. unfold sizeof at 2. rewrite lay_cls.
    cbn [size align dsize empties]. unfold body. cbn [map foldl].
    set (st := start (Some 1) (Some (tuple_storage ts))).
    assert (align st = 1) as Ea by (cbn; by rewrite IHa).
    assert (dsize st = sum (sizeof <$> ts) + extra ts) as Ed by done.
    assert (empties st = empties (lay (tuple_storage ts))) as Ee by done.
    assert (part_ok st) as Hp by (apply start_ok; [apply pow2_1|intros ? [= <-]; done]).
    enough (align (place (Some 1) st (lay t)) = 1 ∧ dsize (place (Some 1) st (lay t)) = sum (sizeof <$> t :: ts) + extra (t :: ts) ∧
            (0, tuple_end) ∈ empties (place (Some 1) st (lay t))) as (E1 & E2 & E3).
    { rewrite E1, E2, round_up_1. split_and!; try done. apply elem_of_app. by left. }
    destruct ts as [|t' ts].
    + unfold place. rewrite packed_1, round_up_1 by done. cbn [align dsize empties]. rewrite Ea. split_and!; [done| |].
      2: { rewrite Ee. apply elem_of_app. by left. }
      rewrite Ed. cbn [fmap list_fmap sum foldr extra last]. change (0 + 0) with 0.
      set (fuel := (_ * _)%nat). rewrite Ee. change (empties (lay (tuple_storage []))) with [(0, tuple_end)].
      destruct (decide ((0, tuple_end) ∈ empties (lay t))) as [Hin|Hin].
      * assert (∃ f, fuel = S f) as [f ->].
        { subst fuel. rewrite Ee. change (empties (lay (tuple_storage []))) with [(0, tuple_end)]. cbn [length].
          destruct (empties (lay t)) as [|? l]; [by apply elem_of_nil in Hin|]. cbn [length]. eexists. cbn. reflexivity. }
        cbn [find_place].
        assert (clash [(0, tuple_end)] (empties (lay t)) 0 = true) as ->.
        { apply clash_true. exists (0, tuple_end), (0, tuple_end). split_and!; [left|done|done|done]. }
        assert (clash [(0, tuple_end)] (empties (lay t)) (0 + 1) = false) as ->.
        { destruct (clash _ _ _) eqn:E; [|done]. apply clash_true in E as (x & y & Hx & Hy & E & _).
          apply elem_of_list_singleton in Hx as ->. cbn in E. lia. }
        unfold sizeof. lia.
      * rewrite find_place_no_clash; [unfold sizeof; lia|].
        destruct (clash _ _ _) eqn:E; [|done]. apply clash_true in E as ([x1 x2] & [y1 y2] & Hx & Hy & E & E').
        apply elem_of_list_singleton in Hx as [= -> ->]. cbn in E, E'. subst y2. destruct y1; [done|lia].
    + rewrite place_packed; [|done|done|].
      2: { rewrite Ed. pose proof (sum_pos _ _ Hts). lia. }
      cbn [align dsize empties]. rewrite Ea, Ed. split_and!; [done| |].
      * change (extra (t :: t' :: ts)) with (extra (t' :: ts)).
        change (sum (sizeof <$> t :: t' :: ts)) with (sizeof t + sum (sizeof <$> t' :: ts)). unfold sizeof at 2. lia.
      * rewrite Ee. apply elem_of_app. by left.
Qed.
Lemma tuple_lay ts : Forall wf ts →
  alignof (tuple_t ts) = 1 ∧ sizeof (tuple_t ts) = N.max 1 (sum (sizeof <$> ts) + extra ts) ∧
  member_offset (tuple_t ts) 0 = Some 0 ∧ (0, tuple_end) ∈ empties (lay (tuple_t ts)).
Proof.
  intros Hts. destruct (tuple_storage_lay ts Hts) as (Ha & Hd & Hs & He).
  unfold alignof, sizeof, member_offset, tuple_t. rewrite lay_wrap by by apply tuple_storage_wf.
  cbn [align size offsets empties]. split_and!; done.
Qed.
Lemma tuple_offset_eq ts i : Forall wf ts → (i < length ts)%nat →
  tuple_offset ts i = Some (extra ts + sum (drop (S i) (sizeof <$> ts))).
Proof.
  intros Hts. revert i. induction Hts as [|t ts Ht Hts IH]; intros i Hi; [cbn in Hi; lia|].
  destruct i as [|i].
  - cbn [tuple_offset]. unfold member_offset. cbn [tuple_storage].
    destruct (tuple_storage_lay (t :: ts)) as (_ & Hd & _ & _); [by constructor|].
    cbn [tuple_storage] in Hd. rewrite lay_cls in Hd |- *. cbn [dsize offsets] in *. unfold body in *. cbn [map foldl] in *.
    assert (offsets (place (Some 1) (start (Some 1) (Some (tuple_storage ts))) (lay t)) =
      [dsize (place (Some 1) (start (Some 1) (Some (tuple_storage ts))) (lay t)) - size (lay t)]) as ->.
    { unfold place. cbn [offsets dsize start app]. f_equal. lia. }
    rewrite Hd. cbn [lookup list_lookup fmap list_fmap drop]. f_equal. cbn [sum foldr]. unfold sum, sizeof at 1. rewrite drop_0. lia.
  - cbn [tuple_offset]. rewrite IH by (cbn in Hi; lia). destruct ts as [|t' ts]; [cbn in Hi; lia|]. done.
Qed.

(** no empty class of that name occurs *)
Lemma no_tuple_empties t : no_tuple t → ∀ o, (o, tuple_end) ∉ empties (lay t).
Proof.
  assert (∀ o y ys, (o, tuple_end) ∈ shift y ys → ∃ o', (o', tuple_end) ∈ ys) as Hshift.
  { intros o y ys (e & [= -> E] & H)%elem_of_list_fmap. exists e.1. rewrite E. by destruct e. }
  induction t as [s a d|t n IH|nm p b ms IHb IH|p ms IH] using ty_ind'.
  - intros _ o H. by apply elem_of_nil in H.
  - intros Ht o H. cbn in H. apply elem_of_list_In, in_concat in H as (l & Hl & H). apply elem_of_list_In in Hl.
    apply elem_of_list_fmap in Hl as (i & -> & _). apply elem_of_list_In, Hshift in H as [o' H]. by eapply IH.
  - intros (Hn & Hb & Hms) o H. apply no_tuple_Forall in Hms. rewrite lay_cls in H. cbn [empties] in H.
    apply elem_of_app in H as [H|H].
    2: { case_match; [|by apply elem_of_nil in H]. apply elem_of_list_singleton in H. congruence. }
    unfold body in H.
    assert (∀ o, (o, tuple_end) ∉ empties (start p b)) as Hst.
    { destruct b as [b|]; cbn; [by apply IHb|intros ? H'; by apply elem_of_nil in H']. }
    revert H Hst. generalize (start p b). clear Hn Hb IHb b nm. revert o.
    induction ms as [|m ms IHms]; intros o l H Hst; cbn in H; [by eapply Hst|].
    inversion Hms; subst. inversion IH as [|? ? Hm IH']; subst. eapply IHms; [done..|exact H|].
    intros o' H'. cbn in H'. apply elem_of_app in H' as [H'|H']; [by eapply Hst|]. apply Hshift in H' as [o'' H'].
    by eapply Hm.
  - intros Hms o H. cbn [no_tuple] in Hms. apply no_tuple_Forall in Hms. cbn in H. apply elem_of_list_In, in_concat in H as (l & Hl & H).
    apply elem_of_list_In in Hl, H. apply elem_of_list_fmap in Hl as (l' & -> & Hl'). change (map lay ms) with (lay <$> ms) in Hl'.
    apply elem_of_list_fmap in Hl' as (m & -> & Hm). rewrite Forall_forall in IH, Hms. by eapply IH; eauto.
Qed.

(** ** optional *)
Lemma optional_lay t : wf t →
  alignof (optional_t t) = 1 ∧ sizeof (optional_t t) = sizeof t + 1 ∧ offsets (lay (optional_t t)) = [0; sizeof t] ∧
  offsets (lay (Uni (Some 1) [t])) = [0] ∧ sizeof (Uni (Some 1) [t]) = sizeof t.
Proof.
  intros Ht. pose proof (lay_wf _ Ht) as [Ha Hs _ _ _].
  assert (lay (Uni (Some 1) [t]) = Lay (sizeof t) 1 (sizeof t) [0] (empties (lay t))) as EU.
  { cbn. pose proof (pow2_pos _ Ha). replace (N.max (N.min 1 (align (lay t))) 1) with 1 by lia. rewrite round_up_1.
    rewrite app_nil_r. unfold sizeof. f_equal; lia. }
  unfold alignof, sizeof at 1 3, optional_t. rewrite lay_cls. unfold body. cbn [map foldl start]. rewrite EU.
  rewrite (place_fits _ (Lay 0 1 0 [] [])); [|cbn; lia|apply N.divide_0_r|by left]. cbn [align dsize size offsets empties packed].
  rewrite place_fits; [|cbn; lia|cbn; apply N.divide_1_l|by right]. cbn [align dsize size offsets empties packed lay UChar].
  change (N.max (N.max 1 (N.min 1 1)) (N.min 1 1)) with 1. rewrite round_up_1. unfold sizeof. split_and!; [done|lia|done|done|by rewrite EU].
Qed.

(** ** variant *)
Lemma round_up_nested x m a b : pow2 a → pow2 b →
  round_up (N.max x (round_up m b)) (N.max a b) = round_up (N.max x m) (N.max a b).
Proof.
  intros Ha Hb. pose proof (pow2_max _ _ Ha Hb) as Hab. pose proof (pow2_pos _ Ha). pose proof (pow2_pos _ Hb). pose proof (pow2_pos _ Hab).
  pose proof (round_up_ge m b). pose proof (round_up_ge (N.max x m) (N.max a b)). pose proof (round_up_ge (N.max x (round_up m b)) (N.max a b)).
  apply N.le_antisymm; apply round_up_least; try apply round_up_divide; try lia.
  apply N.max_lub; [lia|]. apply round_up_least; [lia| |lia].
  etrans; [|apply round_up_divide]. apply pow2_divide; [done|done|lia].
Qed.
Definition max_size (ts : list ty) : N := foldr N.max 1 (sizeof <$> ts).
Definition max_alignof (ts : list ty) : N := foldr N.max 1 (alignof <$> ts).
Lemma variant_storage_wf ts : Forall wf ts → wf (variant_storage ts).
Proof. induction 1; cbn; [done|]. split_and!; done. Qed.
Lemma max_alignof_pow2 ts : Forall wf ts → pow2 (max_alignof ts).
Proof. intros H. apply foldr_max_pow2, Forall_fmap. eapply Forall_impl; [done|]. intros t Ht%lay_wf. apply Ht. Qed.
Lemma variant_storage_lay ts : Forall wf ts →
  sizeof (variant_storage ts) = round_up (max_size ts) (max_alignof ts) ∧
  alignof (variant_storage ts) = max_alignof ts.
Proof.
  induction 1 as [|t ts Ht Hts [IHs IHa]]; [done|].
  pose proof (variant_storage_wf ts Hts) as Hw. pose proof (lay_wf _ Hw) as [Hwa Hws _ _ _]. pose proof (lay_wf _ Ht) as [Hta Hs _ _ _].
  pose proof (pow2_pos _ Hta). pose proof (pow2_pos _ Hwa).
  assert (alignof (Uni None [t; variant_storage ts]) = N.max (alignof t) (max_alignof ts)) as Ea.
  { cbn. fold (alignof t) (alignof (variant_storage ts)). rewrite IHa. rewrite (N.max_l _ 1); [done|]. fold (alignof (variant_storage ts)) in *. rewrite IHa in *. lia. }
  assert (sizeof (Uni None [t; variant_storage ts]) = round_up (N.max (sizeof t) (max_size ts)) (N.max (alignof t) (max_alignof ts))) as Es.
  { rewrite <-(round_up_nested _ _ (alignof t) (max_alignof ts)); [|done|by apply max_alignof_pow2]. rewrite <-IHs, <-Ea.
    cbn. fold (sizeof t) (sizeof (variant_storage ts)). f_equal. rewrite (N.max_l _ 0) by lia. apply N.max_r.
    fold (sizeof t) in Hs. lia. }
  cbn [variant_storage]. unfold sizeof at 1, alignof at 1.
  rewrite lay_wrap by (cbn; done). cbn [size align]. rewrite Ea, Es. done.
Qed.
Lemma max_sizeof_eq ts s : max_sizeof ts s = foldr N.max s (sizeof <$> ts).
Proof.
  revert s. induction ts as [|t ts IH]; intros s; cbn; [done|]. rewrite IH.
  assert (∀ l x y, foldr N.max (N.max x y) l = N.max x (foldr N.max y l)) as Hf.
  { clear. induction l as [|z l IH]; intros x y; cbn; [done|]. rewrite IH. lia. }
  destruct (N.ltb_spec s (sizeof t)).
  - replace (sizeof t) with (N.max (sizeof t) s) at 1 by lia. by rewrite Hf.
  - replace s with (N.max (sizeof t) s) at 1 by lia. by rewrite Hf.
Qed.
Lemma max_sizeof_max_size ts : ts ≠ [] → Forall wf ts → max_sizeof ts 0 = max_size ts.
Proof.
  intros Hne Hts. rewrite max_sizeof_eq. unfold max_size.
  assert (∀ l, l ≠ [] → Forall (λ x, 1 ≤ x) l → foldr N.max 0 l = foldr N.max 1 l) as Hf.
  { clear. intros l Hne Hl. induction Hl as [|x l Hx Hl IH]; [done|]. cbn. destruct l as [|y l]; [cbn; lia|]. by rewrite IH. }
  apply Hf; [by destruct ts|]. apply Forall_fmap. eapply Forall_impl; [done|]. intros t Ht%lay_wf. destruct Ht. cbn. unfold sizeof. lia.
Qed.
Lemma foldr_max_is_max l : l ≠ [] → Forall (λ x, 1 ≤ x) l → is_max (foldr N.max 1 l) l.
Proof.
  intros Hne Hl. induction Hl as [|x l Hx Hl IH]; [done|]. destruct l as [|y l].
  - cbn. rewrite N.max_l by lia. split; [left|]. by repeat constructor.
  - destruct IH as [Hin Hall]; [done|]. set (m := foldr N.max 1 (y :: l)) in *. change (foldr N.max 1 (x :: y :: l)) with (N.max x m).
    split.
    + destruct (N.max_dec x m) as [->| ->]; [left|by right].
    + constructor; [lia|]. eapply Forall_impl; [done|]. intros z ?. cbn in *. lia.
Qed.
Lemma max_size_is_max ts : ts ≠ [] → Forall wf ts → is_max (max_size ts) (sizeof <$> ts).
Proof.
  intros Hne Hts. apply foldr_max_is_max; [by destruct ts|]. apply Forall_fmap. eapply Forall_impl; [done|].
  intros t Ht%lay_wf. destruct Ht. cbn. unfold sizeof. lia.
Qed.
Lemma max_alignof_is_max ts : ts ≠ [] → Forall wf ts → is_max (max_alignof ts) (alignof <$> ts).
Proof.
  intros Hne Hts. apply foldr_max_is_max; [by destruct ts|]. apply Forall_fmap. eapply Forall_impl; [done|].
  intros t Ht%lay_wf. destruct Ht as [Ha _ _ _ _]. apply pow2_pos in Ha. cbn. unfold alignof. lia.
Qed.
Lemma is_max_unique m m' l : is_max m l → is_max m' l → m = m'.
Proof.
  intros [H1 H2] [H3 H4]. rewrite Forall_forall in H2, H4. specialize (H2 _ H3). specialize (H4 _ H1). cbn in *. lia.
Qed.
Lemma variant_lay ts : Forall wf ts →
  alignof (variant_t ts) = 1 ∧ sizeof (variant_t ts) = sizeof (variant_storage ts) + 1 ∧
  offsets (lay (variant_t ts)) = [0; sizeof (variant_storage ts)].
Proof.
  intros Hts. pose proof (variant_storage_wf ts Hts) as [Ha Hs _ _ _]%lay_wf. pose proof (pow2_pos _ Ha).
  unfold alignof, sizeof at 1, variant_t. rewrite lay_cls. unfold body. cbn [map foldl start].
  rewrite (place_fits _ (Lay 0 1 0 [] [])); [|cbn; lia|apply N.divide_0_r|by left]. cbn [align dsize size offsets empties].
  rewrite place_fits; [|cbn; lia|cbn; apply N.divide_1_l|by right]. cbn [align dsize size offsets empties packed lay UChar].
  replace (N.max (N.max 1 (N.min 1 _)) (N.min 1 1)) with 1 by lia. rewrite round_up_1. unfold sizeof. split_and!; [done|lia|done].
Qed.
Lemma variant_offset_eq ts i : Forall wf ts → (i < length ts)%nat → variant_offset ts i = Some 0.
Proof.
  intros Hts. revert i. induction Hts as [|t ts Ht Hts IH]; intros i Hi; [cbn in Hi; lia|].
  assert (member_offset (variant_storage (t :: ts)) 0 = Some 0) as E.
  { unfold member_offset. cbn [variant_storage]. rewrite lay_wrap; [done|]. cbn. split_and!; [done|done|done|by apply variant_storage_wf|done]. }
  destruct i as [|i]; cbn [variant_offset]; rewrite E; [done|].
  rewrite IH by (cbn in Hi; lia). done.
Qed.
