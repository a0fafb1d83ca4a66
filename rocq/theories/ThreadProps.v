(** C100: threads that use library objects at the same time. *)
From stdpp Require Import prelude gmap.
From Verif Require Import ThreadModel ThreadSpec ThreadLogic ThreadProofs ThreadStrings ThreadCalls.
Implicit Types (shared own : objs) (owns : list objs) (m r h : mem) (hs : list mem).

(** memory [m] is [rest], the objects that are shared and those of each thread, without overlap *)
Definition apart (hs : list mem) : Prop := ∀ i j h h', i ≠ j → hs !! i = Some h → hs !! j = Some h' → h ##ₘ h'.
Definition together (shared : objs) (owns : list objs) (rest m : mem) : Prop :=
  ∃ (r : mem) (hs : list mem), memory_of shared r ∧ Forall2 memory_of owns hs ∧
    apart (rest :: r :: hs) ∧ m = ⋃ (rest :: r :: hs).

(** ** Lemmas *)
Definition result_of (shared : objs) (owns : list objs) (ts : list client) (i : nat) (o : outcome (list (outcome val))) (h : mem) : Prop :=
  ∃ own t os own', owns !! i = Some own ∧ ts !! i = Some t ∧ o = Ok os ∧ alone shared own t os own' ∧ memory_of own' h.
Lemma apart_lookup hs (x : addr) v : apart hs → (⋃ hs) !! x = Some v ↔ ∃ i h, hs !! i = Some h ∧ h !! x = Some v.
Proof.
  induction hs as [|h hs IH]; intros Ap.
  - split; [done|]. by intros (i & h & E & _).
  - assert (apart hs) as Ap' by (intros i j h1 h2 N E1 E2; apply (Ap (S i) (S j)); [congruence|done|done]).
    cbn [union_list foldr]. fold (⋃ hs). rewrite lookup_union_Some_raw, (IH Ap'). split.
    + intros [E|[_ (i & h' & E & Ex)]]; [by exists 0, h|by exists (S i), h'].
    + intros ([|i] & h' & E & Ex); [injection E as <-; by left|]. right. split; [|by exists i, h'].
      eapply (map_disjoint_Some_r h h'); [by apply (Ap 0 (S i))|done].
Qed.
Lemma start shared owns (ts : list client) rest m r hs : memory_of shared r → Forall2 memory_of owns hs →
  apart (rest :: r :: hs) → m = ⋃ (rest :: r :: hs) →
  Forall2 (well_behaved shared) owns ts →
  inv r (result_of shared owns ts) (thread <$> ts) (λ i, default ∅ (hs !! i)) m ∧
  parts (rest ∪ r) (thread <$> ts) (λ i, default ∅ (hs !! i)) m.
Proof.
  intros Mr Mh Ap Em W.
  assert (∀ x v, m !! x = Some v ↔ ∃ i h, (rest :: r :: hs) !! i = Some h ∧ h !! x = Some v) as Lm.
  { intros x v. rewrite Em. by apply apart_lookup. }
  assert (∀ i h, (rest :: r :: hs) !! i = Some h → h ⊆ m) as Sub.
  { intros i h E. apply map_subseteq_spec. intros x v Ex. apply Lm. eauto. }
  assert (∀ k q, (thread <$> ts) !! k = Some q → ∃ h, hs !! k = Some h) as G.
  { intros k q' E. apply lookup_lt_is_Some. apply lookup_lt_Some in E. rewrite fmap_length in E.
    apply Forall2_length in W. apply Forall2_length in Mh. lia. }
  split; [split|split].
  - by apply (Sub 1).
  - intros i p E. rewrite list_lookup_fmap in E. destruct (ts !! i) as [t|] eqn:Et; [|done]. injection E as <-.
    destruct (Forall2_lookup_r _ _ _ _ _ W Et) as (own & Eo & Wt).
    destruct (Forall2_lookup_l _ _ _ _ _ Mh Eo) as (h & Eh & Mo).
    rewrite Eh. cbn [default from_option]. split_and!; [by apply (Sub (S (S i)))|by apply (Ap 1 (S (S i)))|].
    assert (r ##ₘ h) by (by apply (Ap 1 (S (S i)))).
    apply memory_owned in Mr as (R & OR & SR). apply memory_owned in Mo as (cs & Oc & Sc).
    eapply wp_mono; [by eapply (ok_thread _ _ t OR _ _ Oc Wt)|].
    cbn beta. intros o h' (cs' & S' & os & own' & -> & Al & O'). exists own, t, os, own'. split_and!; [done..|].
    apply memory_owned. eauto.
  - intros i j p q N Ei Ej.
    destruct (G _ _ Ei) as [h Eh], (G _ _ Ej) as [h' Eh']. rewrite Eh, Eh'. cbn [default from_option].
    apply (Ap (S (S i)) (S (S j))); [congruence|done|done].
  - intros i p E. destruct (G _ _ E) as [h Eh]. rewrite Eh. cbn [default from_option].
    apply map_disjoint_union_l. split; [by apply (Ap 0 (S (S i)))|by apply (Ap 1 (S (S i)))].
  - intros x v. rewrite Lm, lookup_union_Some by (by apply (Ap 0 1)). split.
    + intros ([|[|i]] & h & E & Ex); [injection E as <-; left; by left|injection E as <-; left; by right|].
      right. assert (is_Some ((thread <$> ts) !! i)) as [p Ep].
      { apply lookup_lt_is_Some. rewrite fmap_length. apply lookup_lt_Some in E.
        apply Forall2_length in W. apply Forall2_length in Mh. change (i < length hs) in E || cbn in E. lia. }
      exists i, p. split; [done|]. change (hs !! i = Some h) in E. by rewrite E.
    + intros [[Ex|Ex]|(i & p & E & Ex)]; [by exists 0, rest|by exists 1, r|].
      destruct (G _ _ E) as [h Eh]. rewrite Eh in Ex. by exists (S (S i)), h.
Qed.
Lemma steps_length {A} (ts ts' : list (prog A)) (m m' : mem) : rtc step (ts, m) (ts', m') → length ts' = length ts.
Proof.
  intros St. remember (ts, m) as x eqn:Ex. remember (ts', m') as y eqn:Ey.
  revert ts m Ex. induction St as [|x [ts1 m1] y H St IH]; intros ts m ->.
  - by injection Ey as <- <-.
  - rewrite (IH Ey ts1 m1 eq_refl). inversion H; subst. by rewrite insert_length.
Qed.

(** ** Theorems *)
(** Threads that change only objects of their own and read shared objects besides: whatever the
    interleaving, no access is outside of the objects, there is no data race, and a thread that has finished
    has results and objects that it could have had alone *)
Theorem C100 shared owns (ts : list client) (rest : mem) m ts' m' : together shared owns rest m → Forall2 (well_behaved shared) owns ts →
  rtc step (thread <$> ts, m) (ts', m') →
  ¬ undefined ts' m' ∧ ¬ race ts' m' ∧
  (∃ r, memory_of shared r ∧ r ⊆ m') ∧ rest ⊆ m' ∧
  ∀ i o, ts' !! i = Some (Done o) → ∃ own t os own' h, owns !! i = Some own ∧ ts !! i = Some t ∧
    o = Ok os ∧ alone shared own t os own' ∧ memory_of own' h ∧ h ⊆ m'.
Proof.
  intros (r & hs & Mr & Mh & Ap & Em) W St. destruct (start _ _ _ _ _ _ _ Mr Mh Ap Em W) as [I0 P0].
  destruct (wp_sound _ _ _ _ _ _ _ I0 St) as (U & Rc & hs' & I & P & F). apply P in P0 as [_ P0].
  split_and!; [done|done|..].
  - exists r. split; [done|]. apply I.
  - apply map_subseteq_spec. intros x v Ex. apply P0. left. by apply lookup_union_Some_l.
  - intros i o E. destruct (F _ _ E) as (own & t & os & own' & Eo & Et & -> & Al & M).
    exists own, t, os, own', (hs' i). split_and!; [done..|]. by destruct (inv_own _ _ _ _ _ I _ _ E).
Qed.
(** once all have finished there are the objects that they have and what was there besides, nothing else: no
    memory is lost, and other threads may go on *)
Theorem C100_finished shared owns (ts : list client) (rest : mem) m ts' m' : together shared owns rest m → Forall2 (well_behaved shared) owns ts →
  rtc step (thread <$> ts, m) (ts', m') → (∀ i p, ts' !! i = Some p → ∃ o, p = Done o) →
  ∃ oss owns', ts' = (λ os, Done (Ok os)) <$> oss ∧ together shared owns' rest m' ∧ length oss = length ts ∧ length owns' = length ts ∧
    ∀ i own t os own', owns !! i = Some own → ts !! i = Some t → oss !! i = Some os → owns' !! i = Some own' →
      alone shared own t os own'.
Proof.
  intros (r & hs & Mr & Mh & Ap & Em) W St Fin. destruct (start _ _ _ _ _ _ _ Mr Mh Ap Em W) as [I0 P0].
  destruct (wp_sound _ _ _ _ _ _ _ I0 St) as (U & Rc & hs' & I & P & F). apply P in P0 as [D0 P0].
  apply steps_length in St. rewrite fmap_length in St.
  assert (∀ n, n ≤ length ts' → ∃ oss owns', take n ts' = (λ os, Done (Ok os)) <$> oss ∧ length owns' = n ∧
    (∀ i own t os own', owns !! i = Some own → ts !! i = Some t → oss !! i = Some os → owns' !! i = Some own' → alone shared own t os own') ∧
    (∀ i own', owns' !! i = Some own' → memory_of own' (hs' i))) as G.
  { induction n as [|n IH]; intros L.
    - exists [], []. split_and!; [by rewrite take_0|done|done|done].
    - destruct IH as (oss & owns' & E & Lo & H1 & H2); [lia|].
      destruct (lookup_lt_is_Some_2 ts' n L) as [p Ep]. destruct (Fin _ _ Ep) as [o ->].
      destruct (F _ _ Ep) as (own & t & os & own' & Eo & Et & -> & Al & M).
      assert (length oss = n) as Ls.
      { apply (f_equal length) in E. rewrite fmap_length, take_length in E. lia. }
      exists (oss ++ [os]), (owns' ++ [own']). split_and!.
      + rewrite (take_S_r _ _ _ Ep), E, fmap_app. done.
      + rewrite app_length. cbn [length]. lia.
      + intros i own2 t2 os2 own2' E1 E2 E3 E4. destruct (decide (i < n)).
        * rewrite lookup_app_l in E3 by lia; rewrite lookup_app_l in E4 by lia. by eapply H1.
        * pose proof (lookup_lt_Some _ _ _ E4) as Li. rewrite app_length in Li. cbn [length] in Li. assert (i = n) as -> by lia.
          rewrite lookup_app_r, Ls, Nat.sub_diag in E3 by lia. rewrite lookup_app_r, Lo, Nat.sub_diag in E4 by lia.
          cbn in E3, E4. congruence.
      + intros i own2' E4. destruct (decide (i < n)).
        * rewrite lookup_app_l in E4 by lia. by apply H2.
        * pose proof (lookup_lt_Some _ _ _ E4) as Li. rewrite app_length in Li. cbn [length] in Li. assert (i = n) as -> by lia.
          rewrite lookup_app_r, Lo, Nat.sub_diag in E4 by lia. cbn in E4. congruence. }
  destruct (G (length ts')) as (oss & owns' & E & Lo & H1 & H2); [done|]. rewrite take_ge in E by done.
  assert (length oss = length ts) as Ls by (rewrite <- St, E; by rewrite fmap_length).
  exists oss, owns'. split_and!; [done| |done|congruence|done].
  assert (∀ i h, (hs' <$> seq 0 (length owns')) !! i = Some h → ∃ p, ts' !! i = Some p ∧ h = hs' i) as Hh.
  { intros i h E1. rewrite list_lookup_fmap in E1. destruct (seq 0 (length owns') !! i) as [k|] eqn:Ek; [|done].
    apply lookup_seq in Ek as [-> Li]. injection E1 as <-. rewrite Lo in Li.
    destruct (lookup_lt_is_Some_2 ts' i Li) as [p Ep]. eauto. }
  assert (apart (rest :: r :: (hs' <$> seq 0 (length owns')))) as Ap'.
  { assert (∀ i h, (hs' <$> seq 0 (length owns')) !! i = Some h → rest ##ₘ h ∧ r ##ₘ h) as Hd.
    { intros i h E1. destruct (Hh _ _ E1) as (p & Ep & ->). by apply map_disjoint_union_l, (D0 i p). }
    assert (rest ##ₘ r) by (by apply (Ap 0 1)).
    intros [|[|i]] [|[|j]] h h' N E1 E2; [done|..].
    - injection E1 as <-. by injection E2 as <-.
    - injection E1 as <-. by apply (Hd j h' E2).
    - injection E1 as <-. injection E2 as <-. by apply map_disjoint_sym.
    - done.
    - injection E1 as <-. by apply (Hd j h' E2).
    - injection E2 as <-. apply map_disjoint_sym. by apply (Hd i h E1).
    - injection E2 as <-. apply map_disjoint_sym. by apply (Hd i h E1).
    - destruct (Hh _ _ E1) as (p & Ep & ->), (Hh _ _ E2) as (q & Eq & ->).
      eapply (inv_apart _ _ _ _ _ I); [congruence|done|done]. }
  exists r, (hs' <$> seq 0 (length owns')). split_and!; [done| |done|].
  - apply Forall2_same_length_lookup_2; [by rewrite fmap_length, seq_length|].
    intros i own' h E1 E2. rewrite list_lookup_fmap in E2. rewrite lookup_seq_lt in E2 by (by eapply lookup_lt_Some).
    injection E2 as <-. by apply H2.
  - apply map_eq. intros x. apply option_eq. intros v.
    rewrite (apart_lookup _ _ _ Ap'), P0, lookup_union_Some by (by apply (Ap 0 1)). split.
    + intros [[Ex|Ex]|(i & p & E1 & Ex)]; [by exists 0, rest|by exists 1, r|].
      exists (S (S i)), (hs' i). split; [|done]. change ((hs' <$> seq 0 (length owns')) !! i = Some (hs' i)).
      rewrite list_lookup_fmap, lookup_seq_lt; [done|]. rewrite Lo. by eapply lookup_lt_Some.
    + intros ([|[|i]] & h & E1 & Ex); [injection E1 as <-; left; by left|injection E1 as <-; left; by right|].
      destruct (Hh i h E1) as (p & Ep & ->). right. eauto.
Qed.

(** ** Parts of one object *)
(** what is read: all but the cells [ls] *)
Definition others (ls : list nat) (v : mem) : mem := filter (λ kv, kv.1 ∉ (inl <$> ls : list addr)) v.
Lemma others_lookup (ls : list nat) (v : mem) (x : addr) w : others ls v !! x = Some w ↔ v !! x = Some w ∧ x ∉ (inl <$> ls : list addr).
Proof. unfold others. by rewrite map_filter_lookup_Some. Qed.
Lemma one_cell_each {A : Type} (v m : mem) (ls : list nat) (ts ts' : list (prog A)) (m' : mem) (Q : nat → outcome A → nat → Prop) :
  v ⊆ m → NoDup ls →
  (∀ k t, ts !! k = Some t → ∃ l w, ls !! k = Some l ∧ v !! inl l = Some w ∧
    wp (others ls v) t {[inl l := w]} (λ o h, ∃ w', h = {[inl l := w']} ∧ Q k o w')) →
  rtc step (ts, m) (ts', m') →
  ¬ undefined ts' m' ∧ ¬ race ts' m' ∧ others ls v ⊆ m' ∧
  ∀ k o, ts' !! k = Some (Done o) → ∃ l w', ls !! k = Some l ∧ m' !! inl l = Some w' ∧ Q k o w'.
Proof.
  intros S N H St.
  set (hs := λ k, match ls !! k with Some l => match v !! inl l with Some w => {[inl l := w]} | None => ∅ end | None => ∅ end : mem).
  assert (∀ k l (x : addr) w, ls !! k = Some l → hs k !! x = Some w → x = inl l ∧ v !! inl l = Some w) as Hs.
  { intros k l x w E Ex. unfold hs in Ex. rewrite E in Ex. destruct (v !! inl l) eqn:Ev; [|by rewrite lookup_empty in Ex].
    apply lookup_singleton_Some in Ex as [<- ->]. done. }
  assert (inv (others ls v) (λ k o h, ∃ l w', ls !! k = Some l ∧ h = {[inl l := w']} ∧ Q k o w') ts hs m) as I.
  { split.
    - etrans; [|apply S]. apply map_filter_subseteq.
    - intros k t E. destruct (H _ _ E) as (l & w & El & Ew & W). split_and!.
      + apply map_subseteq_spec. intros x w' Ex. destruct (Hs _ _ _ _ El Ex) as [-> ?]. by eapply lookup_weaken.
      + apply map_disjoint_spec. intros x y z Ex Ey. destruct (Hs _ _ _ _ El Ey) as [-> ?].
        apply others_lookup in Ex as [_ Ex]. apply Ex. apply elem_of_list_fmap. exists l. split; [done|]. by eapply elem_of_list_lookup_2.
      + unfold hs. rewrite El, Ew. eapply wp_mono; [apply W|]. intros o h (w' & -> & q). eauto.
    - intros k k' t t' Nk E E'. destruct (H _ _ E) as (l & w & El & Ew & _), (H _ _ E') as (l' & w' & El' & Ew' & _).
      apply map_disjoint_spec. intros x y z Ex Ey. destruct (Hs _ _ _ _ El Ex) as [-> _], (Hs _ _ _ _ El' Ey) as [[= ->] _].
      apply Nk. by eapply NoDup_lookup. }
  destruct (wp_sound _ _ _ _ _ _ _ I St) as (U & Rc & hs' & I' & _ & F). split_and!; [done|done|apply I'|].
  intros k o E. destruct (F _ _ E) as (l & w' & El & Eh & q). exists l, w'. split_and!; [done| |done].
  destruct (inv_own _ _ _ _ _ I' _ _ E) as (Sh & _ & _). rewrite Eh in Sh. eapply lookup_weaken; [|apply Sh]. apply lookup_singleton.
Qed.

Fixpoint all_set (us : list (nat * nat)) (l : list nat) : list nat :=
  match us with [] => l | u :: us' => <[u.1 := u.2]> (all_set us' l) end.
(** Threads may change different elements of a vector: no race, and each change is there at the end *)
Theorem C100_elements (a n : nat) (xs : list nat) (v m : mem) (ups : list (nat * nat)) (ts' : list (prog unit)) (m' : mem) : layout a (OVec n xs) v → v ⊆ m →
  NoDup ups.*1 → Forall (λ u, u.1 < length xs) ups →
  rtc step ((λ u, v_set a u.1 u.2) <$> ups, m) (ts', m') →
  ¬ undefined ts' m' ∧ ¬ race ts' m' ∧
  ((∀ k p, ts' !! k = Some p → ∃ o, p = Done o) →
    ∃ xs' v', layout a (OVec n xs') v' ∧ v' ⊆ m' ∧ length xs' = length xs ∧
      (∀ i x, (i, x) ∈ ups → xs' !! i = Some x) ∧ ∀ i, i ∉ ups.*1 → xs' !! i = xs !! i).
Proof.
  intros L S N Fx St. pose proof (steps_length _ _ _ _ St) as Ln. rewrite fmap_length in Ln.
  destruct L as [(-> & -> & ->)|(b & rest & Nb & -> & Nn & -> & D)].
  { destruct ups as [|u ups]; [|inversion Fx; cbn [length] in *; lia].
    destruct (one_cell_each (cells a [0; 0; 0; 0]) m [] [] ts' m' (λ _ _ _, True) S) as (U & Rc & Sub & _); [constructor|done|done|].
    split_and!; [done|done|]. intros _. exists [], (cells a [0; 0; 0; 0]). split_and!; [by left| |done| |done].
    - apply map_subseteq_spec. intros x w Ex. eapply lookup_weaken; [|apply Sub]. apply others_lookup. split; [done|]. apply not_elem_of_nil.
    - intros i x I. by apply elem_of_nil in I. }
  set (hdr := [1; b; length (xs ++ rest); length xs]) in *. set (v := cells a hdr ∪ block b (xs ++ rest)) in *.
  set (ls := (λ i, b + i) <$> ups.*1).
  assert (NoDup ls) as Nl by (apply NoDup_fmap_2; [intros ? ? ?; lia|done]).
  assert (∀ i, i < length xs → ∃ w, v !! inl (b + i) = Some w ∧ cells a hdr !! inl (b + i) = None) as Hv.
  { intros i Li. destruct (lookup_lt_is_Some_2 (xs ++ rest) i) as [w Ew]; [rewrite app_length; lia|].
    assert (block b (xs ++ rest) !! inl (b + i) = Some w) as Eb.
    { rewrite block_lookup, decide_True by (rewrite app_length; lia). by replace (b + i - b) with i by lia. }
    exists w. split; [by apply lookup_union_Some_r|]. by eapply map_disjoint_Some_l. }
  assert (others ls v !! inl (a + 1) = Some b) as Hp.
  { apply others_lookup. assert (cells a hdr !! inl (a + 1) = Some b) as E.
    { rewrite cells_lookup. cbn [hdr length]. rewrite decide_True by lia. by replace (a + 1 - a) with 1 by lia. }
    split; [by apply lookup_union_Some_l|]. intros I. apply elem_of_list_fmap in I as (l & [= <-] & I).
    unfold ls in I. rewrite <- list_fmap_compose in I. apply elem_of_list_fmap in I as (u & El & I). cbn in El.
    rewrite Forall_forall in Fx. destruct (Hv _ (Fx _ I)) as (w & _ & F). rewrite <- El in F. congruence. }
  destruct (one_cell_each v m ls ((λ u, v_set a u.1 u.2) <$> ups) ts' m' (λ k o w, ∃ u, ups !! k = Some u ∧ w = u.2) S Nl) as (U & Rc & Sub & F).
  { intros k t E. rewrite list_lookup_fmap in E. destruct (ups !! k) as [u|] eqn:Eu; [|done]. injection E as <-.
    assert (u.1 < length xs) as Li by (by eapply (Forall_lookup_1 (λ u, u.1 < length xs))). destruct (Hv _ Li) as (w & Ew & _). exists (b + u.1), w.
    split_and!; [unfold ls; rewrite !list_lookup_fmap, Eu; done|done|].
    unfold v_set, v_data, rd, wr. cbn [bind ret wp]. exists b. split; [by left|]. split; [by rewrite lookup_singleton|].
    exists u.2. split; [apply insert_singleton|]. eauto. }
  { done. }
  split_and!; [done|done|]. intros Fin.
    assert (∀ us l, length (all_set us l) = length l) as Lu.
  { intros us l. induction us as [|u us IH]; [done|]. cbn [all_set]. by rewrite insert_length. }
  assert (∀ us l i, i ∉ us.*1 → all_set us l !! i = l !! i) as Hother.
  { intros us l i. induction us as [|u us IH]; intros Ni; [done|]. cbn [all_set fmap list_fmap] in *. apply not_elem_of_cons in Ni as [Ne Ni].
    rewrite list_lookup_insert_ne by done. by apply IH. }
  assert (∀ us l i x, NoDup us.*1 → Forall (λ u, u.1 < length l) us → (i, x) ∈ us → all_set us l !! i = Some x) as Hin.
  { intros us l i x. induction us as [|u us IH]; intros Nd Fl I; [by apply elem_of_nil in I|].
    apply Forall_cons in Fl as [Fu Fl]. cbn [all_set fmap list_fmap] in *. apply NoDup_cons in Nd as [Ni Nd].
    apply elem_of_cons in I as [<-|I].
    - apply list_lookup_insert. by rewrite Lu.
    - rewrite list_lookup_insert_ne; [by apply IH|]. intros E. apply Ni. rewrite E. by apply (elem_of_list_fmap_1 fst us (i, x)). }
  assert (all_set ups (xs ++ rest) = all_set ups xs ++ rest) as Eapp.
  { clear -Fx Lu. induction ups as [|u us IH]; [done|]. apply Forall_cons in Fx as [Fu Fl]. cbn [all_set].
    rewrite (IH Fl). apply insert_app_l. by rewrite Lu. }
  assert (length (all_set ups xs ++ rest) = length (xs ++ rest)) as El by (by rewrite !app_length, Lu).
  exists (all_set ups xs), (cells a hdr ∪ block b (all_set ups xs ++ rest)). split_and!; [| |apply Lu| |].
  - right. exists b, rest. split_and!; [done|by rewrite El|done|by rewrite Lu|]. rewrite Lu.
    apply map_disjoint_spec. intros x y z Ex Ey.
    assert (is_Some (block b (xs ++ rest) !! x)) as [z' Ez].
    { destruct x as [l|l].
      - rewrite block_lookup in *. rewrite El in Ey. case_decide; [|done].
        apply lookup_lt_is_Some. lia.
      - rewrite block_lookup_r in *. case_decide; [eauto|done]. }
    by apply (map_disjoint_spec (cells a hdr) (block b (xs ++ rest))) with (i := x) (x := y) (y := z') in D.
  - apply map_subseteq_spec. intros x w Ex. destruct (decide (x ∈ (inl <$> ls : list addr))) as [I|I].
    + apply elem_of_list_fmap in I as (l & -> & I). apply elem_of_list_lookup in I as (k & Ek).
      assert (k < length ts') as Lk.
      { apply lookup_lt_Some in Ek. unfold ls in Ek. rewrite !fmap_length in Ek. lia. }
      destruct (lookup_lt_is_Some_2 ts' k Lk) as [p Ep]. destruct (Fin _ _ Ep) as [o ->].
      destruct (F _ _ Ep) as (l' & w' & Ell & Em & (u & Eu & ->)).
      assert (l' = l) as -> by congruence. rewrite Em. symmetry. rewrite <- Ex.
      unfold ls in Ell. rewrite !list_lookup_fmap, Eu in Ell. injection Ell as <-.
      assert (u.1 < length xs) as Li by (by eapply (Forall_lookup_1 (λ u, u.1 < length xs))). destruct (Hv _ Li) as (w2 & _ & Ec).
      rewrite lookup_union_r by done. rewrite block_lookup, decide_True by (rewrite app_length, Lu; lia).
      replace (b + u.1 - b) with u.1 by lia. rewrite lookup_app_l by (rewrite Lu; lia).
      apply Hin; [done|done|]. destruct u. by eapply elem_of_list_lookup_2.
    + eapply lookup_weaken; [|apply Sub]. apply others_lookup. split; [|done].
      apply lookup_union_Some_raw in Ex as [Ex|[Ec Ex]]; [by apply lookup_union_Some_l|].
      apply lookup_union_Some_raw. right. split; [done|]. destruct x as [l|l].
      * rewrite block_lookup in *. rewrite El in Ex. case_decide as Dl; [|done].
        rewrite <- Ex, <- Eapp. symmetry. apply Hother. intros J. apply I. apply elem_of_list_fmap. exists l. split; [done|].
        unfold ls. apply elem_of_list_fmap. exists (l - b). split; [lia|done].
      * rewrite block_lookup_r in *. by rewrite El in Ex.
  - intros i x I. by apply Hin.
  - intros i Ni. by apply Hother.
Qed.

Definition new_byte (u : nat * bool) (w : nat) : nat := if u.2 then Nat.setbit w (u.1 mod 8) else Nat.clearbit w (u.1 mod 8).
Fixpoint all_altered (us : list (nat * bool)) (l : list nat) : list nat :=
  match us with [] => l | u :: us' => alter (new_byte u) (u.1 / 8) (all_altered us' l) end.
(** Threads may set bits of a bitset that are in different bytes *)
Theorem C100_bits_partial (a : nat) (vs : list nat) (m : mem) (ups : list (nat * bool)) (ts' : list (prog unit)) (m' : mem) : cells a vs ⊆ m →
  NoDup ((λ u, u.1 / 8) <$> ups) → Forall (λ u, u.1 / 8 < length vs) ups →
  rtc step ((λ u, b_set a u.1 u.2) <$> ups, m) (ts', m') →
  ¬ undefined ts' m' ∧ ¬ race ts' m' ∧
  ((∀ k p, ts' !! k = Some p → ∃ o, p = Done o) →
    ∃ vs', cells a vs' ⊆ m' ∧ length vs' = length vs ∧
      (∀ i x, (i, x) ∈ ups → bit vs' i = Some x) ∧ ∀ i, i ∉ ups.*1 → bit vs' i = bit vs i).
Proof.
  intros S N Fx St. pose proof (steps_length _ _ _ _ St) as Ln. rewrite fmap_length in Ln.
  set (ls := (λ u, a + u.1 / 8) <$> ups).
  assert (NoDup ls) as Nl.
  { unfold ls. change (λ u : nat * bool, a + u.1 / 8) with ((λ i, a + i) ∘ (λ u : nat * bool, u.1 / 8)).
    rewrite list_fmap_compose. apply NoDup_fmap_2; [intros ? ? ?; lia|done]. }
  assert (∀ i, i < length vs → ∃ w, vs !! i = Some w ∧ cells a vs !! inl (a + i) = Some w) as Hv.
  { intros i Li. destruct (lookup_lt_is_Some_2 vs i Li) as [w Ew]. exists w. split; [done|].
    rewrite cells_lookup, decide_True by lia. by replace (a + i - a) with i by lia. }
  destruct (one_cell_each (cells a vs) m ls ((λ u, b_set a u.1 u.2) <$> ups) ts' m'
    (λ k o w, ∃ u w0, ups !! k = Some u ∧ vs !! (u.1 / 8) = Some w0 ∧ w = new_byte u w0) S Nl) as (U & Rc & Sub & F).
  { intros k t E. rewrite list_lookup_fmap in E. destruct (ups !! k) as [u|] eqn:Eu; [|done]. injection E as <-.
    assert (u.1 / 8 < length vs) as Li by (by eapply (Forall_lookup_1 (λ u, u.1 / 8 < length vs))).
    destruct (Hv _ Li) as (w & Ew & Ec). exists (a + u.1 / 8), w.
    split_and!; [unfold ls; rewrite !list_lookup_fmap, Eu; done|done|].
    unfold b_set, rd, wr. cbn [bind ret wp]. exists w. split; [right; apply lookup_singleton|]. split; [by rewrite lookup_singleton|].
    exists (new_byte u w). split; [apply insert_singleton|]. eauto. }
  { done. }
  split_and!; [done|done|]. intros Fin.
    assert (∀ us l, length (all_altered us l) = length l) as Lu.
  { intros us l. induction us as [|u us IH]; [done|]. cbn [all_altered]. by rewrite alter_length. }
  assert (∀ us l i, i ∉ (λ u, u.1 / 8) <$> us → all_altered us l !! i = l !! i) as Hother.
  { intros us l i. induction us as [|u us IH]; intros Ni; [done|]. cbn [all_altered fmap list_fmap] in *. apply not_elem_of_cons in Ni as [Ne Ni].
    rewrite list_lookup_alter_ne by done. by apply IH. }
  assert (∀ us l u, NoDup ((λ u, u.1 / 8) <$> us) → u ∈ us → all_altered us l !! (u.1 / 8) = new_byte u <$> l !! (u.1 / 8)) as Hin.
  { intros us l u. induction us as [|u' us IH]; intros Nd I; [by apply elem_of_nil in I|].
    cbn [all_altered fmap list_fmap] in *. apply NoDup_cons in Nd as [Ni Nd].
    apply elem_of_cons in I as [<-|I].
    - rewrite list_lookup_alter. f_equal. by apply Hother.
    - rewrite list_lookup_alter_ne; [by apply IH|]. intros E. apply Ni. rewrite E. by apply (elem_of_list_fmap_1 (λ u, u.1 / 8) us u). }
  exists (all_altered ups vs). split_and!; [|apply Lu|..].
  - apply map_subseteq_spec. intros x w Ex. destruct x as [l|l]; [|by rewrite cells_lookup_r in Ex].
    rewrite cells_lookup, Lu in Ex. case_decide as Dl; [|done].
    destruct (decide (l ∈ ls)) as [I|I].
    + apply elem_of_list_lookup in I as (k & Ek).
      assert (k < length ts') as Lk.
      { apply lookup_lt_Some in Ek. unfold ls in Ek. rewrite !fmap_length in Ek. lia. }
      destruct (lookup_lt_is_Some_2 ts' k Lk) as [p Ep]. destruct (Fin _ _ Ep) as [o ->].
      destruct (F _ _ Ep) as (l' & w' & El & Em & (u & w0 & Eu & Ew & ->)).
      assert (l' = l) as -> by congruence. rewrite Em, <- Ex.
      unfold ls in El. rewrite !list_lookup_fmap, Eu in El. cbn [fmap option_fmap option_map] in El. apply (inj Some) in El.
      replace (l - a) with (u.1 / 8) by lia. rewrite (Hin ups vs u); [|done|by eapply elem_of_list_lookup_2]. by rewrite Ew.
    + eapply lookup_weaken; [|apply Sub]. apply others_lookup. split.
      * rewrite cells_lookup, decide_True by lia. rewrite <- Ex. symmetry. apply Hother. intros J. apply I.
        apply elem_of_list_fmap in J as (u & E & J). unfold ls. apply elem_of_list_fmap. exists u. split; [lia|done].
      * intros J. apply I. by apply elem_of_list_fmap in J as (l' & [= <-] & J).
  - intros i x I. pose proof (Hin ups vs _ N I) as E. cbn [fst] in E. unfold bit. rewrite E.
    rewrite Forall_forall in Fx. destruct (Hv _ (Fx _ I)) as (w & Ew & _). cbn [fst] in Ew. rewrite Ew. cbn [fmap option_fmap option_map].
    f_equal. unfold new_byte. cbn [fst snd]. destruct x; [apply Nat.setbit_eq|apply Nat.clearbit_eq].
  - intros i Ni. destruct (decide (i / 8 ∈ (λ u, u.1 / 8) <$> ups)) as [I|I].
    + apply elem_of_list_fmap in I as ([j x] & E & I). pose proof (Hin ups vs _ N I) as E'. cbn [fst] in *.
      unfold bit. rewrite E, E'. rewrite Forall_forall in Fx. destruct (Hv _ (Fx _ I)) as (w & Ew & _). cbn [fst] in Ew.
      rewrite Ew. cbn [fmap option_fmap option_map]. f_equal. unfold new_byte. cbn [fst snd].
      assert (j mod 8 ≠ i mod 8) as Nm.
      { intros M. apply Ni. replace i with j; [by apply (elem_of_list_fmap_1 fst ups (j, x))|].
        rewrite (Nat.div_mod i 8), (Nat.div_mod j 8) by lia. lia. }
      destruct x; [by apply Nat.setbit_neq|by apply Nat.clearbit_neq].
    + unfold bit. by rewrite Hother.
Qed.
(** but not bits in the same byte: that is a data race, and one of them may get lost *)
Theorem C100_bits_refuted (a i j v : nat) (m : mem) : i / 8 = j / 8 → i ≠ j → m !! inl (a + i / 8) = Some v → Nat.testbit v (i mod 8) = false →
  (∃ ts' m', rtc step ([b_set a i true; b_set a j true], m) (ts', m') ∧ race ts' m') ∧
  (∃ m' w, rtc step ([b_set a i true; b_set a j true], m) ([Done (Ok tt); Done (Ok tt)], m') ∧
    m' !! inl (a + i / 8) = Some w ∧ Nat.testbit w (i mod 8) = false).
Proof.
  intros E N Em Et. unfold b_set. rewrite <- E. cbn [rd wr bind ret]. set (l := a + i / 8) in *. split.
  - eexists _, _. split.
    + eapply rtc_once. eapply (step_thread _ 0); [reflexivity|]. by apply step_rd.
    + do 5 eexists. exists true, false. split_and!; [exact (Nat.neq_0_succ 0)|reflexivity|reflexivity| |split; reflexivity|reflexivity].
      split; reflexivity.
  - eexists _, _. split; [|split; [apply lookup_insert|]].
    + eapply rtc_l; [eapply (step_thread _ 0); [reflexivity|]; by apply step_rd|]. cbn [insert list_insert].
      eapply rtc_l; [eapply (step_thread _ 1); [reflexivity|]; by apply step_rd|]. cbn [insert list_insert].
      eapply rtc_l; [eapply (step_thread _ 0); [reflexivity|]; by apply step_wr|]. cbn [insert list_insert].
      eapply rtc_l; [eapply (step_thread _ 1); [reflexivity|]; apply step_wr; rewrite lookup_insert; eauto|]. cbn [insert list_insert].
      apply rtc_refl.
    + cbn beta. rewrite Nat.setbit_neq; [done|]. intros M. apply N.
      rewrite (Nat.div_mod i 8), (Nat.div_mod j 8) by lia. lia.
Qed.

(** a string may not be read while another thread destroys it, and a vector not while another appends to it:
    the discipline of [well_behaved] is needed *)
Definition calls (cs : list call) : list client := (λ c, Call c (λ _, Finish)) <$> cs.
Theorem C100_destroyed_refuted (a n i : nat) (xs : list nat) (v m : mem) : layout a (OStr n xs) v → v ⊆ m → 22 < n → i < length xs →
  ∃ ts' m', rtc step (thread <$> calls [SAt a i; SDestroy a], m) (ts', m') ∧ race ts' m'.
Proof.
  intros [(rest & -> & _ & _)|(b & rest & unused & Nb & Nn & Ln & Lu & -> & D)] S N Li; [lia|].
  set (hdr := 1 :: b :: n :: length xs :: unused) in *.
  assert (∀ k w, hdr !! k = Some w → m !! inl (a + k) = Some w) as Hh.
  { intros k w E. eapply lookup_weaken; [|apply S]. apply lookup_union_Some_l. rewrite cells_lookup.
    pose proof (lookup_lt_Some _ _ _ E). rewrite decide_True by lia. by replace (a + k - a) with k by lia. }
  assert (m !! inr b = Some (length (xs ++ 0 :: rest))) as Hb.
  { eapply lookup_weaken; [|apply S]. apply lookup_union_Some_r; [done|]. by rewrite block_lookup_r, decide_True. }
  pose proof (Hh 0 _ eq_refl) as H0. rewrite Nat.add_0_r in H0.
  pose proof (Hh 1 _ eq_refl) as H1. pose proof (Hh 3 _ eq_refl) as H3.
  eexists _, _. split.
  - eapply rtc_l; [eapply (step_thread _ 0); [reflexivity|]; by apply step_rd|]. cbn [insert list_insert Nat.eqb].
    eapply rtc_l; [eapply (step_thread _ 0); [reflexivity|]; by apply step_rd|]. cbn [insert list_insert].
    cbn [bind catch ret]. replace (length xs <=? i) with false by (symmetry; apply Nat.leb_gt; lia).
    eapply rtc_l; [eapply (step_thread _ 0); [reflexivity|]; by apply step_rd|]. cbn [insert list_insert Nat.eqb].
    eapply rtc_l; [eapply (step_thread _ 0); [reflexivity|]; by apply step_rd|]. cbn [insert list_insert].
    eapply rtc_l; [eapply (step_thread _ 1); [reflexivity|]; by apply step_rd|]. cbn [insert list_insert Nat.eqb].
    eapply rtc_l; [eapply (step_thread _ 1); [reflexivity|]; by apply step_rd|]. cbn [insert list_insert].
    apply rtc_refl.
  - exists 0, 1. eexists _, _, (inl (b + i)), false, true. split_and!; [done|reflexivity|reflexivity|split; reflexivity| |done].
    split; [done|]. right. exists (length (xs ++ 0 :: rest)), (b + i). split_and!; [done|lia| |done]. rewrite app_length. lia.
Qed.
Theorem C100_appended_refuted (a n x : nat) (xs : list nat) (v m : mem) : layout a (OVec n xs) v → v ⊆ m → length xs < n →
  ∃ ts' m', rtc step (thread <$> calls [VSize a; VPush a x], m) (ts', m') ∧ race ts' m'.
Proof.
  intros [(-> & -> & _)|(b & rest & Nb & -> & Nn & -> & D)] S Ln; [cbn [length] in Ln; lia|].
  set (hdr := [1; b; length (xs ++ rest); length xs]) in *.
  assert (∀ k w, hdr !! k = Some w → cells a hdr !! inl (a + k) = Some w) as Hc.
  { intros k w E. rewrite cells_lookup. pose proof (lookup_lt_Some _ _ _ E). rewrite decide_True by lia. by replace (a + k - a) with k by lia. }
  assert (∀ k w, hdr !! k = Some w → m !! inl (a + k) = Some w) as Hh.
  { intros k w E. eapply lookup_weaken; [|apply S]. by apply lookup_union_Some_l, Hc. }
  assert (is_Some (block b (xs ++ rest) !! inl (b + length xs))) as [w Ew].
  { rewrite block_lookup, decide_True by lia. apply lookup_lt_is_Some. lia. }
  assert (∀ k w', hdr !! k = Some w' → a + k ≠ b + length xs) as Ne.
  { intros k w' E E'. apply Hc in E. rewrite E' in E.
    by apply (map_disjoint_spec (cells a hdr) (block b (xs ++ rest))) with (i := inl (b + length xs)) (x := w') (y := w) in D. }
  assert (is_Some (m !! inl (b + length xs))) as Hw.
  { exists w. eapply lookup_weaken; [|apply S]. by apply lookup_union_Some_r. }
  pose proof (Hh 1 _ eq_refl) as H1. pose proof (Hh 2 _ eq_refl) as H2. pose proof (Hh 3 _ eq_refl) as H3.
  pose proof (Ne 1 _ eq_refl) as N1. pose proof (Ne 3 _ eq_refl) as N3.
  eexists _, _. split.
  - do 6 (eapply rtc_l; [eapply (step_thread _ 1); [reflexivity|]; by apply step_rd|]; cbn [insert list_insert bind catch ret fst snd]).
    replace (length xs + 1 <=? length (xs ++ rest)) with true by (symmetry; apply Nat.leb_le; lia).
    do 2 (eapply rtc_l; [eapply (step_thread _ 1); [reflexivity|]; by apply step_rd|]; cbn [insert list_insert bind catch ret fst snd]).
    eapply rtc_l; [eapply (step_thread _ 1); [reflexivity|]; by apply step_wr|]; cbn [insert list_insert bind catch ret fst snd].
    do 2 (eapply rtc_l; [eapply (step_thread _ 1); [reflexivity|]; apply step_rd; by rewrite lookup_insert_ne by congruence|];
      cbn [insert list_insert bind catch ret fst snd]).
    unfold rotate. rewrite Nat.eqb_refl. cbn [orb bind ret].
    eapply rtc_l; [eapply (step_thread _ 1); [reflexivity|]; apply step_rd; by rewrite lookup_insert_ne by congruence|].
    apply rtc_refl.
  - exists 0, 1. eexists _, _, (inl (a + 3)), false, true. split_and!; [done|reflexivity|reflexivity|split; reflexivity|split; reflexivity|done].
Qed.

(** ** Examples *)
(** two threads copy the vector at 100 to memory of their own, and append to the copies *)
Definition seven_eight : objs := {[100 := OVec 2 [7; 8]]}.
Definition copying (a : nat) : client :=
  Call (VCopy a 100) (λ o, match o with Ok _ => Call (VPush a 9) (λ _, Call (VSize a) (λ _, Finish)) | Exn _ => Finish end).
Definition raw_of (a : nat) : objs := {[a := ORaw 4]}.
Definition vec_memory : mem := cells 100 [1; 200; 2; 2] ∪ block 200 [7; 8].
Definition all_memory : mem := ⋃ [cells 1 [42]; vec_memory; cells 10 [0; 0; 0; 0]; cells 20 [0; 0; 0; 0]].
Example C100_together_case : together seven_eight [raw_of 10; raw_of 20] (cells 1 [42]) all_memory.
Proof.
  assert (∀ a x h, layout a x h → memory_of {[a := x]} h) as One.
  { intros a x h L. rewrite <- (right_id_L ∅ (∪) h). apply memory_more; [done|done|constructor|apply map_disjoint_empty_r]. }
  exists vec_memory, [cells 10 [0; 0; 0; 0]; cells 20 [0; 0; 0; 0]]. split_and!.
  - apply One. right. exists 200, []. split_and!; [lia|done|lia|done|]. apply (bool_decide_unpack _). by vm_compute.
  - repeat constructor; apply One; by eexists [_; _; _; _].
  - intros [|[|[|[|i]]]] [|[|[|[|j]]]] h h' N E1 E2; try done; injection E1 as <-; injection E2 as <-;
      apply (bool_decide_unpack _); by vm_compute.
  - done.
Qed.
Example C100_copies_case ts' m' : rtc step ([thread (copying 10); thread (copying 20)], all_memory) (ts', m') →
  ¬ undefined ts' m' ∧ ¬ race ts' m' ∧
  ∀ os, ts' !! 1 = Some (Done (Ok os)) → Ok (VNat 3) ∈ os ∨ Exn BadAlloc ∈ os.
Proof.
  intros St.
  assert (∀ a, a ≠ 100 → well_behaved seven_eight (raw_of a) (copying a)) as W.
  { intros a N. split.
    - split; [apply lookup_singleton|]. exists 2, [7; 8]. by right.
    - intros o own' (d & ys & [E|E] & H); [by unfold raw_of in E; rewrite lookup_singleton_ne in E|].
      unfold seven_eight in E. rewrite lookup_singleton in E. injection E as <- <-.
      destruct H as [(c & L & -> & ->)|[-> ->]]; [|done]. split.
      + exists c, [7; 8]. apply lookup_insert.
      + intros o' own' (c' & xs & E & H). unfold raw_of in E. rewrite lookup_insert in E. injection E as <- <-.
        assert (∃ c xs, own' !! a = Some (OVec c xs)) as (c'' & xs & Ea).
        { case_decide; [|destruct H as [(c'' & _ & H)|H]].
          - destruct H as [_ ->]. eexists _, _. apply lookup_insert.
          - destruct H as [_ ->]. eexists _, _. apply lookup_insert.
          - destruct H as [_ ->]. exists c, [7; 8]. apply lookup_insert. }
        split; [exists c'', xs; by left|done]. }
  destruct (C100 seven_eight [raw_of 10; raw_of 20] [copying 10; copying 20] _ all_memory ts' m' C100_together_case) as (U & R & _ & _ & F);
    [repeat constructor; by apply W|done|].
  split_and!; [done|done|]. intros os E. destruct (F _ _ E) as (own & t & os' & own' & h & [= <-] & [= <-] & [= <-] & Al & _).
  destruct Al as (o & os1 & own1 & -> & (d & ys & [Es|Es] & H) & Al); [by unfold raw_of in Es; rewrite lookup_singleton_ne in Es|].
  unfold seven_eight in Es. rewrite lookup_singleton in Es. injection Es as <- <-.
  destruct H as [(c & L & -> & ->)|[-> ->]]; [|right; left].
  destruct Al as (o & os2 & own2 & -> & (c' & xs & Ea & H) & Al). unfold raw_of in Ea. rewrite lookup_insert in Ea. injection Ea as <- <-.
  assert (o = Exn BadAlloc ∨ ∃ c, own2 !! 20 = Some (OVec c [7; 8; 9])) as [->|[c2 E2]].
  { case_decide; [|destruct H as [(c'' & _ & H)|H]]; destruct H as [? ->]; [right; eexists; apply lookup_insert..|by left]. }
  { right. right. left. }
  left. destruct Al as (o3 & os3 & own3 & -> & (c3 & xs & [Es|Es] & [-> ->]) & _); [|by unfold seven_eight in Es; rewrite lookup_singleton_ne in Es].
  assert (xs = [7; 8; 9]) as -> by congruence. right. right. left.
Qed.
(** two threads write different elements of that vector *)
Example C100_elements_case ts' m' : rtc step ([v_set 100 0 5; v_set 100 1 6], vec_memory) (ts', m') →
  ¬ race ts' m' ∧ (ts' = [Done (Ok tt); Done (Ok tt)] → ∃ v', layout 100 (OVec 2 [5; 6]) v' ∧ v' ⊆ m').
Proof.
  intros St. destruct (C100_elements 100 2 [7; 8] vec_memory vec_memory [(0, 5); (1, 6)] ts' m') as (U & R & F); [| | | |done|].
  - right. exists 200, []. split_and!; [lia|done|lia|done|]. apply (bool_decide_unpack _). by vm_compute.
  - done.
  - apply (bool_decide_unpack _). by vm_compute.
  - repeat constructor.
  - split; [done|]. intros ->. destruct F as (xs' & v' & L & Sv & Ln & H & _).
    { intros [|[|k]] p [= <-]; eauto. }
    exists v'. replace [5; 6] with xs'; [done|]. destruct xs' as [|x [|y [|z xs']]]; [done|done| |done].
    assert (Some x = Some 5) as [= ->] by (apply (H 0); left). assert (Some y = Some 6) as [= ->] by (apply (H 1); right; left). done.
Qed.
Example C100_bits_case ts' m' : rtc step ([b_set 5 3 true; b_set 5 8 false], cells 5 [0; 255]) (ts', m') →
  ¬ race ts' m' ∧ (ts' = [Done (Ok tt); Done (Ok tt)] → ∃ vs', cells 5 vs' ⊆ m' ∧ bit vs' 3 = Some true ∧ bit vs' 8 = Some false ∧ bit vs' 9 = Some true).
Proof.
  intros St. destruct (C100_bits_partial 5 [0; 255] (cells 5 [0; 255]) [(3, true); (8, false)] ts' m') as (U & R & F); [done| | |done|].
  - apply (bool_decide_unpack _). by vm_compute.
  - repeat constructor; cbn; lia.
  - split; [done|]. intros ->. destruct F as (vs' & L & Ln & H & H').
    { intros [|[|k]] p [= <-]; eauto. }
    exists vs'. split_and!; [done|apply H; left|apply H; right; left|]. rewrite H'; [done|].
    cbn. rewrite !elem_of_cons, elem_of_nil. lia.
Qed.
Example C100_lost_case : ∃ m' w, rtc step ([b_set 5 3 true; b_set 5 4 true], cells 5 [0]) ([Done (Ok tt); Done (Ok tt)], m') ∧
  m' !! inl 5 = Some w ∧ Nat.testbit w 3 = false.
Proof. apply (C100_bits_refuted 5 3 4 0 (cells 5 [0])); [done|lia|done|done]. Qed.
(** one thread inserts into that vector *)
Definition inserting : client := Call (VInsert 100 1 5) (λ o, match o with Ok _ => Call (VAt 100 2) (λ _, Finish) | Exn _ => Finish end).
Lemma one_object a x h : layout a x h → memory_of {[a := x]} h.
Proof. intros L. rewrite <- (right_id_L ∅ (∪) h). apply memory_more; [done|done|constructor|apply map_disjoint_empty_r]. Qed.
Lemma alone_together own h : memory_of own h → together ∅ [own] ∅ h.
Proof.
  intros M. exists ∅, [h]. split_and!; [constructor|by repeat constructor| |].
  - intros [|[|[|i]]] [|[|[|j]]] h1 h2 N E1 E2; try done; injection E1 as <-; injection E2 as <-;
      by (apply map_disjoint_empty_l || apply map_disjoint_empty_r).
  - unfold union_list. cbn [foldr]. by rewrite (right_id_L ∅ (∪)), !(left_id_L ∅ (∪)).
Qed.
Example C100_insert_case ts' m' : rtc step ([thread inserting], vec_memory) (ts', m') →
  ¬ undefined ts' m' ∧ ∀ os, ts' = [Done (Ok os)] → os = [Ok (VNat 5); Ok (VNat 8)] ∨ os = [Exn BadAlloc].
Proof.
  intros St.
  assert (∀ o own, means ∅ seven_eight (VInsert 100 1 5) o own →
    (o = Ok (VNat 5) ∧ ∃ c, own !! 100 = Some (OVec c [7; 5; 8])) ∨ o = Exn BadAlloc) as M.
  { intros o own (c & xs & ys & E & L & H). unfold seven_eight in E. rewrite lookup_singleton in E.
    destruct xs as [|x [|y xs]]; [done| |done]. injection E as <- <- <-. cbv zeta in H. rewrite decide_False in H by (cbn; lia).
    destruct H as [(c' & _ & -> & ->)|[-> _]]; [left|by right]. split; [done|]. exists c'. apply lookup_insert. }
  destruct (C100 ∅ [seven_eight] [inserting] ∅ vec_memory ts' m') as (U & _ & _ & _ & F); [| |done|].
  - apply alone_together, one_object. right. exists 200, []. split_and!; [lia|done|lia|done|]. apply (bool_decide_unpack _). by vm_compute.
  - repeat constructor.
    + exists 2, [7; 8]. split; [apply lookup_singleton|cbn; lia].
    + intros o own' H. destruct (M _ _ H) as [[-> [c E]]| ->]; [|done]. split; [|done]. exists c, [7; 5; 8]. by left.
  - split; [done|]. intros os ->. destruct (F 0 _ eq_refl) as (own & t & os' & own' & h & [= <-] & [= <-] & [= <-] & Al & _).
    destruct Al as (o & os1 & own1 & -> & H & Al). destruct (M _ _ H) as [[-> [c E]]| ->]; [left|right].
    + destruct Al as (o & os2 & own2 & -> & (c' & xs & [E'|E'] & H') & Al); [|done]. rewrite E in E'. injection E' as <- <-.
      destruct H' as [-> ->]. destruct Al as [-> ->]. done.
    + destruct Al as [-> ->]. done.
Qed.
(** one thread swaps a string on the heap with a short one *)
Definition two_strings : objs := {[300 := OStr 48 [65; 66]; 400 := OStr 22 []]}.
Definition string_memory : mem := cells 300 (1 :: 500 :: 48 :: 2 :: replicate 21 0) ∪ block 500 ([65; 66] ++ 0 :: replicate 46 0).
Example C100_swap_case ts' m' :
  rtc step ([thread (Call (SSwap 300 400) (λ _, Call (SAt 400 1) (λ _, Finish)))], string_memory ∪ cells 400 (0 :: 0 :: 0 :: replicate 22 9)) (ts', m') →
  ¬ undefined ts' m' ∧ ∀ os, ts' = [Done (Ok os)] → os = [Ok VUnit; Ok (VNat 66)].
Proof.
  intros St.
  assert (∀ o own, means ∅ two_strings (SSwap 300 400) o own → o = Ok VUnit ∧ own !! 400 = Some (OStr 48 [65; 66])) as M.
  { intros o own (c & xs & d & ys & E & E' & -> & ->). split; [done|]. unfold two_strings in E. rewrite lookup_insert in E.
    rewrite lookup_insert_ne, lookup_insert by done. congruence. }
  destruct (C100 ∅ [two_strings] [Call (SSwap 300 400) (λ _, Call (SAt 400 1) (λ _, Finish))] ∅ (string_memory ∪ cells 400 (0 :: 0 :: 0 :: replicate 22 9)) ts' m') as (U & _ & _ & _ & F); [| |done|].
  - apply alone_together. unfold two_strings. apply memory_more.
    + done.
    + right. exists 500, (replicate 46 0), (replicate 21 0). split_and!; [lia|lia|done|done|done|]. apply (bool_decide_unpack _). by vm_compute.
    + apply one_object. left. by exists (replicate 22 9).
    + apply (bool_decide_unpack _). by vm_compute.
  - repeat constructor.
    + by exists 48, [65; 66], 22, [].
    + destruct (M _ _ H) as [-> E]. exists 48, [65; 66]. by left.
  - split; [done|]. intros os ->. destruct (F 0 _ eq_refl) as (own & t & os' & own' & h & [= <-] & [= <-] & [= <-] & Al & _).
    destruct Al as (o & os1 & own1 & -> & H & Al). destruct (M _ _ H) as [-> E].
    destruct Al as (o & os2 & own2 & -> & (c' & xs & [E'|E'] & H') & Al); [|done]. rewrite E in E'. injection E' as <- <-.
    destruct H' as [-> ->]. destruct Al as [-> ->]. done.
Qed.
Example C100_destroyed_case : ∃ ts' m', rtc step (thread <$> calls [SAt 300 1; SDestroy 300], string_memory) (ts', m') ∧ race ts' m'.
Proof.
  apply (C100_destroyed_refuted 300 48 1 [65; 66] string_memory); [|done|lia|cbn; lia].
  right. exists 500, (replicate 46 0), (replicate 21 0). split_and!; [lia|lia|done|done|done|]. apply (bool_decide_unpack _). by vm_compute.
Qed.
Example C100_appended_case : ∃ ts' m', rtc step (thread <$> calls [VSize 100; VPush 100 9], cells 100 [1; 200; 2; 1] ∪ block 200 [7; 0]) (ts', m') ∧ race ts' m'.
Proof.
  eapply (C100_appended_refuted 100 2 9 [7]); [|done|cbn; lia].
  right. exists 200, [0]. split_and!; [lia|done|lia|done|]. apply (bool_decide_unpack _). by vm_compute.
Qed.

Print Assumptions C100.
Print Assumptions C100_finished.
Print Assumptions C100_elements.
Print Assumptions C100_bits_partial.
Print Assumptions C100_bits_refuted.
Print Assumptions C100_destroyed_refuted.
Print Assumptions C100_appended_refuted.
