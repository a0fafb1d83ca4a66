(** A program logic for ThreadModel.v: threads own parts of memory, other parts are only read. *)
From stdpp Require Import prelude gmap.
From Verif Require Import ThreadModel.

Implicit Types (a b l : nat) (vs : list nat) (h m r : mem).

(** ** Cells *)
Lemma cells_lookup a vs l : cells a vs !! inl l = if decide (a ≤ l < a + length vs) then vs !! (l - a) else None.
Proof.
  revert a. induction vs as [|v vs IH]; intros a; cbn [cells length].
  - rewrite decide_False by lia. apply lookup_empty.
  - destruct (decide (l = a)) as [->|N].
    + rewrite lookup_insert, decide_True, Nat.sub_diag by lia. done.
    + rewrite lookup_insert_ne, IH by congruence. case_decide.
      * rewrite decide_True by lia. replace (l - a) with (S (l - S a)) by lia. done.
      * rewrite decide_False by lia. done.
Qed.
Lemma cells_lookup_r a vs b : cells a vs !! inr b = None.
Proof.
  revert a. induction vs as [|v vs IH]; intros a; cbn [cells]; [apply lookup_empty|].
  by rewrite lookup_insert_ne.
Qed.
Lemma block_lookup a vs l : block a vs !! inl l = if decide (a ≤ l < a + length vs) then vs !! (l - a) else None.
Proof. unfold block. rewrite lookup_insert_ne by done. apply cells_lookup. Qed.
Lemma block_lookup_r a vs b : block a vs !! inr b = if decide (b = a) then Some (length vs) else None.
Proof.
  unfold block. case_decide as D; [subst; apply lookup_insert|].
  rewrite lookup_insert_ne by congruence. apply cells_lookup_r.
Qed.

(** ** Weakest preconditions: [r] is read, [h] is owned *)
Section wp.
Context (r : mem).
Fixpoint wp {A} (p : prog A) (h : mem) (Q : outcome A → mem → Prop) : Prop :=
  match p with
  | Done o => Q o h
  | Rd l k => ∃ v, (r !! inl l = Some v ∨ h !! inl l = Some v) ∧ wp (k v) h Q
  | Wr l v k => is_Some (h !! inl l) ∧ wp k (<[inl l := v]> h) Q
  | Al n k => wp (k None) h Q ∧
      ∀ b vs, b ≠ 0 → length vs = n → block b vs ##ₘ r → block b vs ##ₘ h → wp (k (Some b)) (block b vs ∪ h) Q
  | Fr b k => ∃ vs h', h = block b vs ∪ h' ∧ block b vs ##ₘ h' ∧ wp k h' Q
  end.
Lemma wp_mono {A} (p : prog A) (h : mem) (Q Q' : outcome A → mem → Prop) : wp p h Q → (∀ o h', Q o h' → Q' o h') → wp p h Q'.
Proof.
  intros W I. revert h W. induction p as [o|l k IH|l v p IH|n k IH|b p IH]; intros h; cbn [wp].
  - apply I.
  - intros (v & E & W). exists v. auto.
  - intros [E W]. auto.
  - intros [W1 W2]. split; [auto|]. intros. apply IH. auto.
  - intros (vs & h' & -> & D & W). exists vs, h'. auto.
Qed.
Lemma wp_bind {A B} (p : prog A) (k : A → prog B) (h : mem) (Q : outcome B → mem → Prop) :
  wp p h (λ o h', match o with Ok a => wp (k a) h' Q | Exn e => Q (Exn e) h' end) → wp (bind p k) h Q.
Proof.
  revert h. induction p as [[a|e]|l f IH|l v p IH|n f IH|b p IH]; intros h; cbn [wp bind]; [done|done|..].
  - intros (v & E & W). exists v. auto.
  - intros [E W]. auto.
  - intros [W1 W2]. split; [auto|]. intros. apply IH. auto.
  - intros (vs & h' & -> & D & W). exists vs, h'. auto.
Qed.
Lemma wp_catch {A B} (p : prog A) (k : outcome A → prog B) (h : mem) (Q : outcome B → mem → Prop) :
  wp p h (λ o h', wp (k o) h' Q) → wp (catch p k) h Q.
Proof.
  revert h. induction p as [o|l f IH|l v p IH|n f IH|b p IH]; intros h; cbn [wp catch]; [done|..].
  - intros (v & E & W). exists v. auto.
  - intros [E W]. auto.
  - intros [W1 W2]. split; [auto|]. intros. apply IH. auto.
  - intros (vs & h' & -> & D & W). exists vs, h'. auto.
Qed.
(** what is owned stays apart from what is shared *)
Lemma wp_disjoint {A} (p : prog A) (h : mem) (Q : outcome A → mem → Prop) : r ##ₘ h → wp p h Q → wp p h (λ o h', Q o h' ∧ r ##ₘ h').
Proof.
  revert h. induction p as [o|l k IH|l v p IH|n k IH|b p IH]; intros h D; cbn [wp].
  - done.
  - intros (v & E & W). exists v. auto.
  - intros [E W]. split; [done|]. apply IH; [|done].
    apply map_disjoint_insert_r. split; [|done]. destruct E. by eapply map_disjoint_Some_l.
  - intros [W1 W2]. split; [auto|]. intros b vs ????. apply IH; [|auto].
    apply map_disjoint_union_r. auto using map_disjoint_sym.
  - intros (vs & h' & -> & D' & W). exists vs, h'. split_and!; [done..|]. apply IH; [|done].
    by apply map_disjoint_union_r in D as [_ ?].
Qed.
End wp.

(** ** Soundness: threads that own disjoint parts *)
Section sound.
Context {A : Type}.
Record inv (r : mem) (Q : nat → outcome A → mem → Prop) (ts : list (prog A)) (hs : nat → mem) (m : mem) : Prop := {
  inv_shared : r ⊆ m;
  inv_own i p : ts !! i = Some p → hs i ⊆ m ∧ r ##ₘ hs i ∧ wp r p (hs i) (Q i);
  inv_apart i j p q : i ≠ j → ts !! i = Some p → ts !! j = Some q → hs i ##ₘ hs j;
}.
Lemma block_sub (b : nat) (vs vs' : list nat) (m : mem) : block b vs ⊆ block b vs' ∪ m → vs = vs'.
Proof.
  intros S. rewrite map_subseteq_spec in S.
  assert (length vs = length vs') as L.
  { assert ((block b vs' ∪ m) !! inr b = Some (length vs)) as E.
    { apply S. by rewrite block_lookup_r, decide_True. }
    apply lookup_union_Some_raw in E as [E|[E _]]; rewrite block_lookup_r, decide_True in E by done; congruence. }
  apply list_eq. intros i. destruct (decide (i < length vs)) as [D|D].
  - destruct (lookup_lt_is_Some_2 vs i D) as [v E]. rewrite E. symmetry.
    assert ((block b vs' ∪ m) !! inl (b + i) = Some v) as F.
    { apply S. rewrite block_lookup, decide_True by lia. by replace (b + i - b) with i by lia. }
    apply lookup_union_Some_raw in F as [F|[F _]]; rewrite block_lookup, decide_True in F by lia;
      replace (b + i - b) with i in F by lia; [done|].
    apply lookup_ge_None in F. lia.
  - rewrite !lookup_ge_None_2 by lia. done.
Qed.
Definition upd (hs : nat → mem) (i : nat) (h : mem) : nat → mem := λ j, if decide (j = i) then h else hs j.

(** memory is [f] and what threads own *)
Definition parts (f : mem) (ts : list (prog A)) (hs : nat → mem) (m : mem) : Prop :=
  (∀ i p, ts !! i = Some p → f ##ₘ hs i) ∧
  ∀ (x : addr) v, m !! x = Some v ↔ f !! x = Some v ∨ ∃ i p, ts !! i = Some p ∧ hs i !! x = Some v.

Lemma inv_step r Q ts hs m ts' m' : inv r Q ts hs m → step (ts, m) (ts', m') →
  ∃ hs', inv r Q ts' hs' m' ∧ ∀ f, parts f ts hs m → parts f ts' hs' m'.
Proof.
  intros [S O D] St. inversion St as [? i p ? p' ? E H]; subst; clear St.
  assert (∀ h', (∀ (x : addr) v, h' !! x = Some v → is_Some (hs i !! x) ∨ m !! x = None) →
    (∀ (x : addr) v, m' !! x = Some v ↔ m !! x = Some v ∧ hs i !! x = None ∨ h' !! x = Some v) →
    ∀ f, parts f ts hs m → parts f (<[i:=p']> ts) (upd hs i h') m') as P.
  { intros h' K1 K2 f [P1 P2]. pose proof (lookup_lt_Some _ _ _ E) as Li. split.
    - intros j q Ej. unfold upd. destruct (decide (j = i)) as [->|N].
      + apply map_disjoint_spec. intros x v w Ex Ey. destruct (K1 _ _ Ey) as [[w' Ew]|En].
        * pose proof (P1 _ _ E) as Di. by apply (map_disjoint_spec f (hs i)) with (i := x) (x := v) (y := w') in Di.
        * assert (m !! x = Some v) as Em by (apply P2; by left). congruence.
      + rewrite list_lookup_insert_ne in Ej by done. by eapply P1.
    - intros x v. rewrite K2, P2. split.
      + intros [[[Ef|(j & q & Ej & Ex)] En]|Eh].
        * by left.
        * right. exists j, q. assert (j ≠ i) by (intros ->; congruence).
          split; [by rewrite list_lookup_insert_ne|]. unfold upd. by rewrite decide_False.
        * right. exists i, p'. split; [by apply list_lookup_insert|]. unfold upd. by rewrite decide_True.
      + intros [Ef|(j & q & Ej & Ex)].
        * left. split; [by left|]. pose proof (P1 _ _ E) as Di. by eapply map_disjoint_Some_l.
        * unfold upd in Ex. destruct (decide (j = i)) as [->|N]; [by right|]. rewrite list_lookup_insert_ne in Ej by done.
          left. split; [right; eauto|]. pose proof (D _ _ _ _ N Ej E) as Dj. by eapply map_disjoint_Some_l. }
  assert (∀ h', h' ⊆ m' → r ##ₘ h' → wp r p' h' (Q i) → r ⊆ m' →
    (∀ j q, j ≠ i → ts !! j = Some q → hs j ⊆ m' ∧ h' ##ₘ hs j) → inv r Q (<[i:=p']> ts) (upd hs i h') m') as U.
  { intros h' Sh Dr W Sr Oth. split; [done|..].
    - intros j q Ej. unfold upd. destruct (decide (j = i)) as [->|N].
      + rewrite list_lookup_insert in Ej by (by eapply lookup_lt_Some). by injection Ej as <-.
      + rewrite list_lookup_insert_ne in Ej by done. destruct (O _ _ Ej) as (?&?&?). by destruct (Oth _ _ N Ej).
    - intros j k q q' N Ej Ek. unfold upd.
      destruct (decide (j = i)) as [->|Nj], (decide (k = i)) as [->|Nk]; [done|..].
      + rewrite list_lookup_insert_ne in Ek by done. by destruct (Oth _ _ Nk Ek).
      + rewrite list_lookup_insert_ne in Ej by done. apply map_disjoint_sym. by destruct (Oth _ _ Nj Ej).
      + rewrite list_lookup_insert_ne in Ej, Ek by done. by eapply D. }
  destruct (O i p E) as (Sh & Dr & W).
  destruct H as [l k v m E'|l v k m E'|n k m|n k m b vs N L F|b k m vs F]; cbn [wp] in W.
  - assert (∀ (x : addr) v, m !! x = Some v ↔ m !! x = Some v ∧ hs i !! x = None ∨ hs i !! x = Some v) as K.
    { intros x w. split; [|intros [[? _]|?]; [done|by eapply lookup_weaken]]. intros Ex.
      destruct (hs i !! x) as [w'|] eqn:Eh; [|by left]. right. eapply lookup_weaken in Eh; [|done]. congruence. }
    exists (upd hs i (hs i)). split; [|apply P; [intros ?? ->; left; eauto|done]]. apply U; [done..| |done|].
    + destruct W as (v' & [Ev|Ev] & W); by replace v with v' by (eapply lookup_weaken in Ev; [|done]; congruence).
    + intros j q N Ej. destruct (O _ _ Ej) as (?&?&?). by split; [|by eapply D].
  - destruct W as [Eh W]. exists (upd hs i (<[inl l:=v]> (hs i))). split.
    2: { apply P.
      - intros x w Ex. left. destruct (decide (x = inl l)) as [->|Nx]; [done|]. rewrite lookup_insert_ne in Ex by done. eauto.
      - intros x w. destruct (decide (x = inl l)) as [->|Nx].
        + rewrite !lookup_insert. destruct Eh as [w' ->]. naive_solver.
        + rewrite !lookup_insert_ne by done. split; [|intros [[? _]|?]; [done|by eapply lookup_weaken]]. intros Ex.
          destruct (hs i !! x) as [w'|] eqn:Eh'; [|by left]. right. eapply lookup_weaken in Eh'; [|done]. congruence. }
    apply U; [|..].
    + by apply insert_mono.
    + apply map_disjoint_insert_r. split; [|done]. destruct Eh. by eapply map_disjoint_Some_l.
    + done.
    + apply insert_subseteq_r; [|done]. destruct Eh. by eapply map_disjoint_Some_l.
    + intros j q N Ej. destruct (O _ _ Ej) as (?&?&?). pose proof (D i j _ _ (not_eq_sym N) E Ej) as Dj.
      destruct Eh. split.
      * apply insert_subseteq_r; [|done]. by eapply map_disjoint_Some_r.
      * apply map_disjoint_insert_l. split; [|done]. by eapply map_disjoint_Some_r.
  - destruct W as [W _].
    assert (∀ (x : addr) v, m !! x = Some v ↔ m !! x = Some v ∧ hs i !! x = None ∨ hs i !! x = Some v) as K.
    { intros x w. split; [|intros [[? _]|?]; [done|by eapply lookup_weaken]]. intros Ex.
      destruct (hs i !! x) as [w'|] eqn:Eh; [|by left]. right. eapply lookup_weaken in Eh; [|done]. congruence. }
    exists (upd hs i (hs i)). split; [|apply P; [intros ?? ->; left; eauto|done]]. apply U; [done..|].
    intros j q N Ej. destruct (O _ _ Ej) as (?&?&?). by split; [|by eapply D].
  - destruct W as [_ W].
    assert (block b vs ##ₘ r) by (eapply map_disjoint_weaken_r; [apply F|done]).
    assert (block b vs ##ₘ hs i) by (eapply map_disjoint_weaken_r; [apply F|done]).
    exists (upd hs i (block b vs ∪ hs i)). split.
    2: { apply P.
      - intros x w Ex. apply lookup_union_Some_raw in Ex as [Ex|[_ Ex]]; [|left; eauto].
        right. by eapply map_disjoint_Some_l.
      - intros x w. rewrite !lookup_union_Some_raw. split.
        + intros [Ex|[Nx Ex]]; [right; by left|].
          destruct (hs i !! x) as [w'|] eqn:Eh; [|by left]. right. right. split; [done|]. eapply lookup_weaken in Eh; [|done]. congruence.
        + intros [[Ex _]|[Ex|[Nx Ex]]]; [|by left|right; split; [done|by eapply lookup_weaken]].
          right. split; [|done]. eapply (map_disjoint_Some_r (block b vs) m); [exact F|exact Ex]. }
    apply U.
    + by apply map_union_mono_l.
    + apply map_disjoint_union_r. auto using map_disjoint_sym.
    + auto.
    + by apply map_union_subseteq_r'.
    + intros j q Nj Ej. destruct (O _ _ Ej) as (?&?&?). split; [by apply map_union_subseteq_r'|].
      apply map_disjoint_union_l. split; [by eapply map_disjoint_weaken_r; [apply F|]|by eapply D].
  - destruct W as (vs' & h' & Eh & Dh & W).
    assert (vs' = vs) as ->.
    { apply (block_sub b _ _ m). etrans; [|apply Sh]. rewrite Eh. apply map_union_subseteq_l. }
    assert (∀ x : mem, x ⊆ block b vs ∪ m → block b vs ##ₘ x → x ⊆ m) as G.
    { intros x Sx Dx. apply map_subseteq_spec. intros y v Ey. rewrite map_subseteq_spec in Sx.
      apply Sx in Ey as Ez. apply lookup_union_Some_raw in Ez as [Ez|[_ Ez]]; [|done].
      exfalso. by apply (map_disjoint_spec (block b vs) x) with (i := y) (x := v) (y := v) in Dx. }
    rewrite Eh in *. apply map_disjoint_union_r in Dr as [Dr1 Dr2].
    exists (upd hs i h'). split.
    2: { apply P.
      - intros x w Ex. left. exists w. by apply lookup_union_Some_r.
      - intros x w. rewrite lookup_union_Some_raw, lookup_union_None. split.
        + intros Ex. assert (block b vs !! x = None) as Nb by (eapply (map_disjoint_Some_r (block b vs) m); [exact F|exact Ex]).
          destruct (h' !! x) as [w'|] eqn:Ex'; [right|left; by split; [right|]].
          assert ((block b vs ∪ m) !! x = Some w') as Ey.
          { eapply lookup_weaken; [|apply Sh]. by apply lookup_union_Some_r. }
          rewrite lookup_union_r in Ey by done. congruence.
        + intros [[[Ex|[_ Ex]] [Nb _]]|Ex]; [congruence|done|].
          assert ((block b vs ∪ m) !! x = Some w) as Ey.
          { eapply lookup_weaken; [|apply Sh]. by apply lookup_union_Some_r. }
          rewrite lookup_union_r in Ey; [done|]. by eapply map_disjoint_Some_r. }
    apply U.
    + apply G; [|done]. etrans; [|apply Sh]. by apply map_union_subseteq_r.
    + done.
    + done.
    + apply G; [done|by apply map_disjoint_sym].
    + intros j q N Ej. destruct (O _ _ Ej) as (?&?&?). pose proof (D i j _ _ (not_eq_sym N) E Ej) as Dj.
      rewrite Eh in Dj. apply map_disjoint_union_l in Dj as [Dj1 Dj2]. by split; [apply G|].
Qed.

(** threads keep out of each other's way *)
Lemma inv_no_undefined r Q ts hs m : inv r Q ts hs m → ¬ undefined ts m.
Proof.
  intros [S O D] (i & p & E & N & St). destruct (O i p E) as (Sh & Dr & W).
  destruct p as [o|l k|l v k|n k|b k]; cbn [wp] in W.
  - by apply (N o).
  - destruct W as (v & Ev & _). apply (St (k v) m). constructor.
    destruct Ev as [Ev|Ev]; by eapply lookup_weaken.
  - destruct W as [[w Ew] _]. eapply St. constructor. exists w. by eapply lookup_weaken.
  - eapply St. apply step_al_fails.
  - destruct W as (vs & h' & Eh & Dh & _).
    assert (block b vs ⊆ m) as B.
    { etrans; [|apply Sh]. rewrite Eh. apply map_union_subseteq_l. }
    apply (St k (m ∖ block b vs)).
    replace m with (block b vs ∪ m ∖ block b vs) at 1 by by apply map_difference_union.
    constructor. by apply map_disjoint_difference_r.
Qed.
(** a thread accesses what it owns, or reads what is shared *)
Lemma wp_accesses r (p : prog A) (h : mem) (Q : outcome A → mem → Prop) (m : mem) x w : wp r p h Q → h ⊆ m → accesses p m x w →
  is_Some (h !! x) ∨ w = false ∧ is_Some (r !! x).
Proof.
  intros W S. destruct p as [o|l k|l v k|n k|b k]; cbn [wp accesses] in *.
  - done.
  - intros [-> ->]. destruct W as (v & [E|E] & _); eauto.
  - intros [-> ->]. destruct W. eauto.
  - done.
  - destruct W as (vs & h' & -> & D & _). intros [-> [->|(n & l & E & L & ->)]]; left.
    + exists (length vs). apply lookup_union_Some_l. by rewrite block_lookup_r, decide_True.
    + assert (Some (length vs) = Some n) as [= <-].
      { rewrite <- E. symmetry. eapply lookup_weaken; [|apply S]. apply lookup_union_Some_l.
        by rewrite block_lookup_r, decide_True. }
      destruct (lookup_lt_is_Some_2 vs (l - b)) as [v Ev]; [lia|].
      exists v. apply lookup_union_Some_l. by rewrite block_lookup, decide_True.
Qed.
Lemma inv_no_race r Q ts hs m : inv r Q ts hs m → ¬ race ts m.
Proof.
  intros [S O D] (i & j & p & q & x & w & w' & N & Ei & Ej & Ai & Aj & W).
  destruct (O _ _ Ei) as (Si & Di & Wi), (O _ _ Ej) as (Sj & Dj & Wj).
  pose proof (D _ _ _ _ N Ei Ej) as Dij.
  destruct (wp_accesses _ _ _ _ _ _ _ Wi Si Ai) as [[v Hi]|[-> [v Hi]]],
    (wp_accesses _ _ _ _ _ _ _ Wj Sj Aj) as [[v' Hj]|[-> [v' Hj]]].
  - by apply (map_disjoint_spec (hs i) (hs j)) with (i := x) (x := v) (y := v') in Dij.
  - by apply (map_disjoint_spec r (hs i)) with (i := x) (x := v') (y := v) in Di.
  - by apply (map_disjoint_spec r (hs j)) with (i := x) (x := v) (y := v') in Dj.
  - done.
Qed.
Lemma inv_steps r Q ts hs m ts' m' : inv r Q ts hs m → rtc step (ts, m) (ts', m') →
  ∃ hs', inv r Q ts' hs' m' ∧ ∀ f, parts f ts hs m → parts f ts' hs' m'.
Proof.
  intros I St. remember (ts, m) as x eqn:Ex. remember (ts', m') as y eqn:Ey.
  revert ts m hs Ex I. induction St as [|x [ts1 m1] y H St IH]; intros ts m hs -> I.
  - injection Ey as <- <-. eauto.
  - destruct (inv_step _ _ _ _ _ _ _ I H) as (hs1 & I1 & P1).
    destruct (IH Ey _ _ _ eq_refl I1) as (hs2 & I2 & P2). eauto.
Qed.
Theorem wp_sound r Q ts hs m ts' m' : inv r Q ts hs m → rtc step (ts, m) (ts', m') →
  ¬ undefined ts' m' ∧ ¬ race ts' m' ∧
  ∃ hs', inv r Q ts' hs' m' ∧ (∀ f, parts f ts hs m → parts f ts' hs' m') ∧ ∀ i o, ts' !! i = Some (Done o) → Q i o (hs' i).
Proof.
  intros I St. destruct (inv_steps _ _ _ _ _ _ _ I St) as (hs' & I' & P).
  split_and!; [by eapply inv_no_undefined|by eapply inv_no_race|].
  exists hs'. split_and!; [done|done|]. intros i o E. by destruct (inv_own _ _ _ _ _ I' i _ E) as (_ & _ & ?).
Qed.
End sound.

(** ** Chunks: memory as a list of ranges of cells *)
Inductive chunk := C (a : nat) (vs : list nat) | B (b : nat) (vs : list nat).
Definition at_ (c : chunk) : nat := match c with C a _ | B a _ => a end.
Definition vals (c : chunk) : list nat := match c with C _ vs | B _ vs => vs end.
Definition cmap (c : chunk) : mem := match c with C a vs => cells a vs | B b vs => block b vs end.
Definition with_vals (c : chunk) (vs : list nat) : chunk := match c with C a _ => C a vs | B b _ => B b vs end.
Implicit Types (c : chunk) (cs R F : list chunk).
Fixpoint sat cs (h : mem) : Prop :=
  match cs with [] => h = ∅ | c :: cs' => ∃ h', h = cmap c ∪ h' ∧ cmap c ##ₘ h' ∧ sat cs' h' end.
Lemma sat_perm cs cs' h : cs ≡ₚ cs' → sat cs h → sat cs' h.
Proof.
  intros P. revert h. induction P as [|c cs cs' P IH|c d cs|cs cs1 cs2 P1 IH1 P2 IH2]; intros h; cbn [sat].
  - done.
  - intros (h' & -> & D & S). eauto.
  - intros (h1 & -> & D1 & h2 & -> & D2 & S). apply map_disjoint_union_r in D1 as [D1 D3].
    exists (cmap d ∪ h2). split_and!.
    + rewrite !(assoc_L (∪)). f_equal. by apply map_union_comm.
    + apply map_disjoint_union_r. by split; [apply map_disjoint_sym|].
    + eauto.
  - auto.
Qed.
Lemma sat_app cs cs' h : sat (cs ++ cs') h ↔ ∃ h1 h2, h = h1 ∪ h2 ∧ h1 ##ₘ h2 ∧ sat cs h1 ∧ sat cs' h2.
Proof.
  revert h. induction cs as [|c cs IH]; intros h; cbn [app sat].
  - split.
    + intros S. exists ∅, h. split_and!; [by rewrite (left_id_L ∅ (∪))|apply map_disjoint_empty_l|done|done].
    + intros (h1 & h2 & -> & D & -> & S). by rewrite (left_id_L ∅ (∪)).
  - split.
    + intros (h' & -> & D & S). apply IH in S as (h1 & h2 & -> & D2 & S1 & S2).
      apply map_disjoint_union_r in D as [D3 D4].
      exists (cmap c ∪ h1), h2. split_and!; [by rewrite (assoc_L (∪))| |eauto|done].
      by apply map_disjoint_union_l.
    + intros (h1 & h2 & -> & D & (h' & -> & D' & S1) & S2). apply map_disjoint_union_l in D as [D3 D4].
      exists (h' ∪ h2). split_and!; [by rewrite (assoc_L (∪))|by apply map_disjoint_union_r|].
      apply IH. eauto 10.
Qed.
Lemma sat_sub cs h c : sat cs h → c ∈ cs → cmap c ⊆ h.
Proof.
  intros S I. apply elem_of_list_split in I as (c1 & c2 & ->).
  apply (sat_perm _ (c :: c1 ++ c2)) in S; [|by rewrite Permutation_middle].
  destruct S as (h' & -> & D & S). apply map_union_subseteq_l.
Qed.
Lemma cmap_lookup c i v : vals c !! i = Some v → cmap c !! inl (at_ c + i) = Some v.
Proof.
  intros E. pose proof (lookup_lt_Some _ _ _ E). destruct c; cbn [cmap at_ vals] in *.
  - rewrite cells_lookup, decide_True by lia. by replace (a + i - a) with i by lia.
  - rewrite block_lookup, decide_True by lia. by replace (b + i - b) with i by lia.
Qed.
Lemma cells_update a vs i v : i < length vs → cells a (<[i:=v]> vs) = <[inl (a + i) := v]> (cells a vs).
Proof.
  intros L. apply map_eq. intros [l|b].
  - rewrite cells_lookup, insert_length. destruct (decide (l = a + i)) as [->|N].
    + rewrite lookup_insert, decide_True by lia. replace (a + i - a) with i by lia. by apply list_lookup_insert.
    + rewrite lookup_insert_ne, cells_lookup by congruence. case_decide; [|done].
      apply list_lookup_insert_ne. lia.
  - rewrite lookup_insert_ne by done. by rewrite !cells_lookup_r.
Qed.
Lemma cmap_update c i v : i < length (vals c) → cmap (with_vals c (<[i:=v]> (vals c))) = <[inl (at_ c + i) := v]> (cmap c).
Proof.
  intros L. destruct c; cbn [cmap at_ vals with_vals] in *; [by apply cells_update|].
  unfold block. rewrite insert_length, cells_update by done. by rewrite insert_commute.
Qed.

(** ** Judgements about chunks *)
Definition ok {A} (R cs : list chunk) (p : prog A) (Q : outcome A → list chunk → Prop) : Prop :=
  ∀ r h, sat R r → sat cs h → r ##ₘ h → wp r p h (λ o h', ∃ cs', sat cs' h' ∧ Q o cs').
Section ok.
Context {A : Type}.
Implicit Types (Q : outcome A → list chunk → Prop).
Lemma ok_done R cs o Q : Q o cs → ok R cs (Done o) Q.
Proof. intros q r h SR S D. cbn [wp]. eauto. Qed.
Lemma ok_mono R cs (p : prog A) Q Q' : ok R cs p Q → (∀ o cs', Q o cs' → Q' o cs') → ok R cs p Q'.
Proof. intros O I r h SR S D. eapply wp_mono; [by apply O|]. intros o h' (cs' & ? & ?). eauto. Qed.
Lemma ok_perm R cs cs' (p : prog A) Q : cs ≡ₚ cs' → ok R cs' p Q → ok R cs p Q.
Proof. intros P O r h SR S D. apply O; [done| |done]. by eapply sat_perm. Qed.
Lemma ok_read R cs c i v l (k : nat → prog A) Q : c ∈ R ++ cs → vals c !! i = Some v → l = at_ c + i →
  ok R cs (k v) Q → ok R cs (Rd l k) Q.
Proof.
  intros I E -> O r h SR S D. cbn [wp]. exists v. split; [|by apply O].
  apply elem_of_app in I as [I|I]; [left|right]; (eapply lookup_weaken; [by apply cmap_lookup|by eapply sat_sub]).
Qed.
Lemma ok_write R cs n c i v l (k : prog A) Q : cs !! n = Some c → i < length (vals c) → l = at_ c + i →
  ok R (<[n := with_vals c (<[i:=v]> (vals c))]> cs) k Q → ok R cs (Wr l v k) Q.
Proof.
  intros E L -> O r h SR S D. cbn [wp].
  apply elem_of_list_split_length in E as (c1 & c2 & -> & ->).
  rewrite insert_app_r_alt, Nat.sub_diag in O by lia. cbn [insert list_insert] in O.
  assert (∀ d, c1 ++ d :: c2 ≡ₚ d :: c1 ++ c2) as P by (intros d; by rewrite Permutation_middle).
  apply (sat_perm _ _ _ (P c)) in S as (h' & -> & D' & S).
  destruct (lookup_lt_is_Some_2 (vals c) i L) as [w Ew].
  assert (cmap c !! inl (at_ c + i) = Some w) as El by by apply cmap_lookup.
  split; [exists w; by apply lookup_union_Some_l|].
  apply O; [done|..].
  - eapply sat_perm; [symmetry; apply P|]. exists h'. rewrite cmap_update by done. split_and!.
    + by rewrite insert_union_l.
    + apply map_disjoint_insert_l. split; [|done]. by eapply map_disjoint_Some_r.
    + done.
  - apply map_disjoint_insert_r. split; [|done]. eapply map_disjoint_Some_l; [done|]. by apply lookup_union_Some_l.
Qed.
Lemma ok_alloc R cs n (k : option nat → prog A) Q : ok R cs (k None) Q →
  (∀ b vs, b ≠ 0 → length vs = n → ok R (B b vs :: cs) (k (Some b)) Q) → ok R cs (Al n k) Q.
Proof.
  intros O1 O2 r h SR S D. cbn [wp]. split; [by apply O1|]. intros b vs N L D1 D2.
  eapply O2; [done|done|done| |].
  - cbn [sat cmap]. eauto.
  - apply map_disjoint_union_r. auto using map_disjoint_sym.
Qed.
Lemma ok_free R cs n b vs (k : prog A) Q : cs !! n = Some (B b vs) → ok R (delete n cs) k Q → ok R cs (Fr b k) Q.
Proof.
  intros E O r h SR S D. cbn [wp].
  apply (sat_perm _ (B b vs :: delete n cs)) in S; [|by apply delete_Permutation].
  destruct S as (h' & -> & D' & S). exists vs, h'. split_and!; [done..|]. apply O; [done|done|].
  by apply map_disjoint_union_r in D as [_ ?].
Qed.
End ok.
Lemma ok_bind {A X} R cs (p : prog A) (k : A → prog X) P (Q : outcome X → list chunk → Prop) : ok R cs p P →
  (∀ (x : A) cs', P (Ok x) cs' → ok R cs' (k x) Q) → (∀ e cs', P (Exn e) cs' → Q (Exn e) cs') → ok R cs (bind p k) Q.
Proof.
  intros O K E r h SR S D. apply wp_bind. eapply wp_mono; [apply wp_disjoint; [done|by apply O]|].
  intros [a|e] h' [(cs' & S' & H) D']; [by eapply K|eauto].
Qed.
Lemma ok_catch {A X} R cs (p : prog A) (k : outcome A → prog X) P (Q : outcome X → list chunk → Prop) : ok R cs p P →
  (∀ o cs', P o cs' → ok R cs' (k o) Q) → ok R cs (catch p k) Q.
Proof.
  intros O K r h SR S D. apply wp_catch. eapply wp_mono; [apply wp_disjoint; [done|by apply O]|].
  intros o h' [(cs' & S' & H) D']. by eapply K.
Qed.
