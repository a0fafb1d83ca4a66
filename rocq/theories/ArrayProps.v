(** Properties C62 and C63: array; and C61 for array. *)
From stdpp Require Import prelude gmap.
From Coq Require Import ZArith Lia.
From Verif Require Import Cpp OrderSpec OrderModel OrderProofs IterModel IterSpec IterProofs ArrayModel ArraySpec ArrayProofs.
Local Open Scope nat_scope.

Section props.
Context `{C : ArrCfg} (Hcfg : cfg_ok).
Notation state := (gmap nat (list V)).
Implicit Types (w : world) (m : state).

(** ** What arrays show to the program *)
(** element [i] of array [x], as operator[] finds it, is [v] *)
Definition element w (x i : nat) (v : V) : Prop :=
  ∃ p, arr_index x (Z.of_nat i) w = Ok p w ∧ pread p w = Ok v w.
(** the arrays are those of [m] *)
Definition shows w m : Prop := ∀ x,
  match m !! x with
  | Some l => length l = Size ∧ ∀ i v, l !! i = Some v → element w x i v
  | None => arr_data x w = Stuck NoObject
  end.
Lemma wf_element m n x l i v : wf m → m !! x = Some l → l !! i = Some v → element (World m n) x i v.
Proof.
  intros Hw Hx Hi. exists (At x (Z.of_nat i)). pose proof (lookup_lt_Some _ _ _ Hi). pose proof (Hw _ _ Hx).
  split; [eapply index_run; [done|done|lia]|by eapply pread_run].
Qed.
Lemma wf_shows m n : wf m → shows (World m n) m.
Proof.
  intros Hw x. destruct (m !! x) as [l|] eqn:Hx.
  - split; [by apply (Hw x)|]. intros i v. by apply wf_element.
  - unfold arr_data, noexcept, bind, get_arr. cbn [arrs]. by rewrite Hx.
Qed.

(** ** C62 *)
(** every history inside the contract runs to its end with the results of the same history on
    sequences of [Size] values *)
Theorem C62_array_is_sequence os rs m n :
  srun os ∅ 0 = Some (rs, m, n) → ∃ w, arun os init_world = Finished rs w ∧ shows w m.
Proof.
  intros H. destruct (arun_run os _ _ _ _ _ Hcfg wf_empty H) as [E Hw]. exists (World m n). split; [done|]. by apply wf_shows.
Qed.
Lemma srun_app os1 os2 : ∀ m n rs1 m1 n1, srun os1 m n = Some (rs1, m1, n1) →
  srun (os1 ++ os2) m n = match srun os2 m1 n1 with Some (rs2, m2, n2) => Some (rs1 ++ rs2, m2, n2) | None => None end.
Proof.
  induction os1 as [|o os1 IH]; intros m n rs1 m1 n1 H; cbn [srun app] in *.
  - injection H as <- <- <-. by destruct (srun os2 m n) as [[[? ?] ?]|].
  - destruct (sstep o m) as [|r m2 ds|e]; [done| |].
    + destruct (settle n ds) as [[d|] n2].
      * destruct (srun os1 d n2) as [[[rs3 m3] n3]|] eqn:E; [|done]. injection H as <- <- <-. rewrite (IH _ _ _ _ _ E). by destruct (srun os2 m3 n3) as [[[? ?] ?]|].
      * destruct (srun os1 m2 n2) as [[[rs3 m3] n3]|] eqn:E; [|done]. injection H as <- <- <-. rewrite (IH _ _ _ _ _ E). by destruct (srun os2 m3 n3) as [[[? ?] ?]|].
    + destruct (srun os1 m n) as [[[rs3 m3] n3]|] eqn:E; [|done]. injection H as <- <- <-. rewrite (IH _ _ _ _ _ E). by destruct (srun os2 m3 n3) as [[[? ?] ?]|].
Qed.
Lemma srun_reachable os rs m n : srun os ∅ 0 = Some (rs, m, n) → reachable (World m n) m.
Proof. intros H. exists os, rs, rs, n. split; [done|]. by apply (arun_run os _ _ _ _ _ Hcfg wf_empty H). Qed.
Lemma reachable_srun w m : reachable w m → ∃ os rs n, srun os ∅ 0 = Some (rs, m, n) ∧ w = World m n ∧ wf m.
Proof.
  intros (os & rs & rs' & n & Hs & Ha). destruct (arun_run _ _ _ _ _ _ Hcfg wf_empty Hs) as [E Hw].
  unfold init_world in Ha. rewrite E in Ha. injection Ha as <- <-. by exists os, rs, n.
Qed.
(** one more call: it has the specified effect, or the k-th operation of the element type throws
    and the specified damage is left *)
Theorem C62_array_call w m o :
  reachable w m →
  match sstep o m with
  | Bad => True
  | Done r m' ds =>
      (∃ w', aexec o w = Ok r w' ∧ reachable w' m' ∧ shows w' m') ∨
      (∃ w' d, d ∈ ds ∧ aexec o w = Exn ElementThrow w' ∧ reachable w' d ∧ shows w' d ∧ ∃ k, fails k = true)
  | Throws e => aexec o w = Exn e w
  end.
Proof.
  intros Hr. destruct (reachable_srun _ _ Hr) as (os & rs & n & Hs & -> & Hw).
  pose proof (aexec_run o m n Hcfg Hw) as Ho. pose proof (sstep_wf o m Hw) as Hwf.
  assert (srun (os ++ [o]) ∅ 0 = match srun [o] m n with Some (rs2, m2, n2) => Some (rs ++ rs2, m2, n2) | None => None end) as Happ by by apply srun_app.
  cbn [srun] in Happ.
  destruct (sstep o m) as [|r m' ds|e] eqn:E; [done| |done]. cbn [agrees] in Ho. unfold finish in Ho. destruct Hwf as [Hm' Hds].
  destruct (settle n ds) as [[d|] n'] eqn:Es.
  - right. exists (World d n'), d. assert (∀ ds n0, settle n0 ds = (Some d, n') → d ∈ ds ∧ ∃ k, fails k = true) as Hset.
    { clear. induction ds as [|d0 ds IH]; intros n0 H; [done|]. cbn [settle] in H. destruct (fails n0) eqn:Ef.
      - injection H as <- _. split; [left|by exists n0].
      - destruct (IH _ H). split; [by right|done]. }
    destruct (Hset _ _ Es) as [Hd Hk]. split; [done|]. split; [done|]. split; [by eapply srun_reachable|]. split; [|done].
    apply wf_shows. by eapply settle_wf.
  - left. exists (World m' n'). split; [done|]. split; [by eapply srun_reachable|by apply wf_shows].
Qed.

(** the outcome of a call as a statement about what the arrays show *)
Lemma call_run {A} (f : M world A) m n a ds m' (Q : world → Prop) :
  f (World m n) = finish a n ds m' → Q (World m' (settle n ds).2) →
  run_to f (World m n) (λ _ w', Q w') (λ e w', e = ElementThrow ∧ ∃ k d n', ds !! k = Some d ∧ w' = World d n').
Proof.
  intros Hf HQ. unfold run_to. rewrite Hf. unfold finish. destruct (settle n ds) as [[d|] n'] eqn:E; [|done].
  split; [done|]. assert (∀ ds n0, settle n0 ds = (Some d, n') → ∃ k, ds !! k = Some d) as Hset.
  { clear. induction ds as [|d0 ds IH]; intros n0 H; [done|]. cbn [settle] in H. destruct (fails n0).
    - injection H as <- _. by exists 0.
    - destruct (IH _ H) as [k Hk]. by exists (S k). }
  destruct (Hset _ _ E) as [k Hk]. by exists k, d, n'.
Qed.
(** the arrays other than [x] are those of [m] *)
Definition others w m (x : nat) : Prop := ∀ y l i v, y ≠ x → m !! y = Some l → l !! i = Some v → element w y i v.
Lemma others_insert m n x l : wf m → length l = Size → others (World (<[x:=l]> m) n) m x.
Proof.
  intros Hw Hl y l' i v Hne Hy Hi. eapply wf_element; [by apply wf_insert|by rewrite lookup_insert_ne by done|done].
Qed.

(** the i-th element is initialised with the i-th argument, the rest by value initialisation; if
    an initialisation throws there is no array and nothing has changed *)
Theorem C62_new w m x args vs :
  reachable w m → m !! x = None → length args ≤ Size →
  Forall2 (λ a v, a = AMove (RVal v) ∨ ∃ r, a = ACopy r ∧ sref m r = Some v) args vs →
  run_to (arr_new x args) w
    (λ _ w', (∀ i v, vs !! i = Some v → element w' x i v) ∧ (∀ i, length vs ≤ i < Size → element w' x i dflt) ∧ others w' m x)
    (λ e w', e = ElementThrow ∧ shows w' m).
Proof.
  intros Hr Hx Hlen Hargs. destruct (reachable_srun _ _ Hr) as (_ & _ & n & _ & -> & Hw).
  assert (∃ ds, sargs m args = Some (vs, m, ds) ∧ Forall (λ d, d = m) ds) as (ds & Hs & Hds).
  { clear -Hargs. induction Hargs as [|a v args vs Ha _ IH]; [by exists []|]. destruct IH as (ds & Hs & Hds). cbn [sargs].
    destruct Ha as [->|(r & -> & Hr)]; cbn [sarg].
    - rewrite Hs. by exists ds.
    - rewrite Hr, Hs. exists (m :: ds). split; [done|]. by apply Forall_cons. }
  pose proof (sargs_len _ _ _ _ _ Hs) as Hvs. set (l := vs ++ replicate (Size - length args) dflt).
  assert (length l = Size) as Hl by (unfold l; rewrite app_length, replicate_length; lia).
  eapply run_to_mono.
  - apply (call_run _ m n tt (ds ++ replicate (Size - length args) m) (<[x:=l]> m) (λ w',
      (∀ i v, vs !! i = Some v → element w' x i v) ∧ (∀ i, length vs ≤ i < Size → element w' x i dflt) ∧ others w' m x)).
    + unfold arr_new. eapply bind_finish_r; [by apply init_run|done].
    + split; [|split; [|by apply others_insert]].
      * intros i v Hi. eapply wf_element; [by apply wf_insert|by rewrite lookup_insert|]. unfold l. rewrite lookup_app_l; [done|by eapply lookup_lt_Some].
      * intros i Hi. eapply wf_element; [by apply wf_insert|by rewrite lookup_insert|]. unfold l. rewrite lookup_app_r by lia. apply lookup_replicate. split; [done|lia].
  - done.
  - intros e w' (-> & k & d & n' & Hd & ->). split; [done|].
    assert (Forall (λ d, d = m) (ds ++ replicate (Size - length args) m)) as Hall by (apply Forall_app; split; [done|by apply Forall_replicate]).
    rewrite Forall_lookup in Hall. rewrite (Hall _ _ Hd). by apply wf_shows.
Qed.
(** fill sets every element of the array to the value, also if that is one of its elements, and
    nothing else; if an assignment throws, the elements before it are set and those after it are
    not touched *)
Theorem C62_fill w m x l r v :
  reachable w m → m !! x = Some l → sref m r = Some v →
  run_to (arr_fill x r) w
    (λ _ w', (∀ i, i < Size → element w' x i v) ∧ others w' m x)
    (λ e w', e = ElementThrow ∧ others w' m x ∧ ∃ k u, l !! k = Some u ∧
      (∀ i, i < k → element w' x i v) ∧ element w' x k (torn u v) ∧ ∀ i u', k < i → l !! i = Some u' → element w' x i u').
Proof.
  intros Hr Hx Hv. destruct (reachable_srun _ _ Hr) as (_ & _ & n & _ & -> & Hw). pose proof (Hw _ _ Hx) as Hl.
  pose proof (aexec_run (AFill x r) m n Hcfg Hw) as Ho. cbn [sstep] in Ho. rewrite Hx, Hv in Ho. cbn [agrees sassign aexec] in Ho.
  assert (length (replicate Size v) = Size) as Hrep by apply replicate_length.
  assert (arr_fill x r (World m n) = finish tt n (imap (λ k p, <[x:=take k (replicate Size v) ++ torn p.1 p.2 :: drop (S k) l]> m) (zip l (replicate Size v))) (<[x:=replicate Size v]> m)) as Hf.
  { unfold bind, finish in *. destruct (arr_fill x r (World m n)) as [[] w'|e w'|f|]; destruct (settle n _) as [[d|] n']; try done; [by injection Ho as ->|by injection Ho as -> ->]. }
  eapply run_to_mono; [eapply (call_run _ m n tt _ _ (λ w', (∀ i, i < Size → element w' x i v) ∧ others w' m x)); [exact Hf|]|done|].
  - split; [|by apply others_insert]. intros i Hi. eapply wf_element; [by apply wf_insert|by rewrite lookup_insert|]. by apply lookup_replicate.
  - intros e w' (-> & k & d & n' & Hd & ->). split; [done|]. rewrite list_lookup_imap in Hd.
    destruct (zip l (replicate Size v) !! k) as [[u u']|] eqn:Ez; [|done]. injection Hd as <-. cbn [fst snd].
    apply lookup_zip_with_Some in Ez as (u1 & u2 & [= <- <-] & Hu & [-> Hk]%lookup_replicate).
    set (l' := take k (replicate Size v) ++ torn u v :: drop (S k) l).
    assert (length (take k (replicate Size v)) = k) as Htake by (rewrite take_length; lia).
    assert (length l' = Size) as Hl' by (unfold l'; rewrite app_length, Htake; cbn [length]; rewrite drop_length; lia).
    split; [by apply others_insert|]. exists k, u. split; [done|].
    assert (∀ i u', l' !! i = Some u' → element (World (<[x:=l']> m) n') x i u') as He.
    { intros i u' Hi. eapply wf_element; [by apply wf_insert|by rewrite lookup_insert|done]. }
    split; [|split].
    + intros i Hi. apply He. unfold l'. rewrite lookup_app_l by lia. rewrite lookup_take by done. apply lookup_replicate. split; [done|lia].
    + apply He. unfold l'. rewrite lookup_app_r by lia. by rewrite Htake, Nat.sub_diag.
    + intros i u' Hi Hu'. apply He. unfold l'. rewrite lookup_app_r by lia. rewrite Htake. destruct (i - k) as [|j] eqn:Ej; [lia|]. cbn [lookup list_lookup].
      change (drop (S k) l !! j = Some u'). rewrite lookup_drop. by replace (S k + j) with i by lia.
Qed.
(** swap exchanges all elements of two arrays, nothing else, and does not throw *)
Theorem C62_swap w m x y a b :
  reachable w m → m !! x = Some a → m !! y = Some b → x ≠ y →
  run_to (arr_swap x y) w
    (λ _ w', (∀ i v, b !! i = Some v → element w' x i v) ∧ (∀ i v, a !! i = Some v → element w' y i v) ∧
      ∀ z l i v, z ≠ x → z ≠ y → m !! z = Some l → l !! i = Some v → element w' z i v) never.
Proof.
  intros Hr Hx Hy Hne. destruct (reachable_srun _ _ Hr) as (_ & _ & n & _ & -> & Hw). pose proof (Hw _ _ Hx). pose proof (Hw _ _ Hy).
  pose proof (aexec_run (ASwap x y) m n Hcfg Hw) as Ho. cbn [sstep] in Ho. rewrite Hx, Hy in Ho. rewrite decide_False in Ho by naive_solver. cbn [agrees aexec] in Ho.
  rewrite finish_nil in Ho. unfold run_to. unfold bind in Ho. destruct (arr_swap x y (World m n)) as [[] w'|e w'|f|]; try done. injection Ho as ->.
  assert (wf (<[x:=b]> (<[y:=a]> m))) as Hw' by (apply wf_insert; [by apply wf_insert|done]).
  split; [|split].
  - intros i v Hi. eapply wf_element; [done|by rewrite lookup_insert|done].
  - intros i v Hi. eapply wf_element; [done|by rewrite lookup_insert_ne, lookup_insert by done|done].
  - intros z l i v Hzx Hzy Hz Hi. eapply wf_element; [done|by rewrite !lookup_insert_ne by done|done].
Qed.
(** at() throws exactly when the index is not below Size, otherwise it is operator[] *)
Theorem C62_at w m x l i :
  reachable w m → m !! x = Some l → (0 ≤ i)%Z →
  ((Z.of_nat Size ≤ i)%Z → arr_at x i w = Exn OutOfRange w) ∧
  ((i < Z.of_nat Size)%Z → ∃ p v, arr_at x i w = Ok p w ∧ arr_index x i w = Ok p w ∧ l !! Z.to_nat i = Some v ∧ pread p w = Ok v w).
Proof.
  intros Hr Hx Hi. destruct (reachable_srun _ _ Hr) as (_ & _ & n & _ & -> & Hw). pose proof (Hw _ _ Hx) as Hl. unfold arr_at. rewrite size_eq by done. split.
  - intros Hge. by rewrite (proj2 (Z.leb_le _ _)).
  - intros Hlt. rewrite (proj2 (Z.leb_gt _ _)) by done. destruct (lookup_lt_is_Some_2 l (Z.to_nat i)) as [v Hv]; [lia|]. exists (At x i), v.
    rewrite (index_run m n x l) by done. split; [done|]. split; [done|]. split; [done|]. rewrite <-(Z2Nat.id i) by done. by eapply pread_run.
Qed.
(** front, back and get<I> are references to the first, last and I-th element *)
Theorem C62_access w m x l :
  reachable w m → m !! x = Some l →
  (Size ≠ 0 → ∃ p, arr_front x w = Ok p w ∧ arr_index x 0 w = Ok p w) ∧
  (Size ≠ 0 → ∃ p, arr_back x w = Ok p w ∧ arr_index x (Z.of_nat (Size - 1)) w = Ok p w) ∧
  ∀ i, i < Size → ∃ p, arr_get i x w = Ok p w ∧ arr_index x (Z.of_nat i) w = Ok p w.
Proof.
  intros Hr Hx. destruct (reachable_srun _ _ Hr) as (_ & _ & n & _ & -> & Hw). pose proof (Hw _ _ Hx) as Hl.
  assert (∀ i, (0 ≤ i < Z.of_nat Size)%Z → arr_index x i (World m n) = Ok (At x i) (World m n)) as Hix by (intros i Hi; by eapply index_run).
  split; [|split].
  - intros H. exists (At x 0). split; [apply noexcept_ok|]; apply Hix; lia.
  - intros H. exists (At x (Z.of_nat Size - 1)). split; [|rewrite Nat2Z.inj_sub by lia; apply Hix; lia]. apply noexcept_ok. rewrite size_eq by done. unfold to_size.
    rewrite Z.mod_small; [apply Hix; lia|]. destruct Hcfg as [H1 H2]. split; [lia|]. replace wbits with (Z.succ (wbits - 1)) by lia. rewrite Z.pow_succ_r by lia. lia.
  - intros i Hi. exists (At x (Z.of_nat i)). split; [|apply Hix; lia]. apply noexcept_ok. rewrite (proj2 (Nat.ltb_lt _ _)) by done. apply Hix. lia.
Qed.
(** references to different elements are different objects: writing through one changes that
    element and no other *)
Theorem C62_write w m x l i u v :
  reachable w m → m !! x = Some l → l !! i = Some u →
  ∃ p w', arr_index x (Z.of_nat i) w = Ok p w ∧ pwrite p v w = Ok tt w' ∧ element w' x i v ∧
    (∀ j u', j ≠ i → l !! j = Some u' → element w' x j u') ∧ others w' m x.
Proof.
  intros Hr Hx Hi. destruct (reachable_srun _ _ Hr) as (_ & _ & n & _ & -> & Hw). pose proof (Hw _ _ Hx) as Hl. pose proof (lookup_lt_Some _ _ _ Hi).
  exists (At x (Z.of_nat i)), (World (<[x:=<[i:=v]> l]> m) n). split; [eapply index_run; [done|done|lia]|]. split; [by apply pwrite_run|].
  assert (length (<[i:=v]> l) = Size) as Hl' by by rewrite insert_length. pose proof (wf_insert m x _ Hw Hl') as Hw'. split; [|split].
  - eapply wf_element; [done|by rewrite lookup_insert|]. by apply list_lookup_insert.
  - intros j u' Hj Hu'. eapply wf_element; [done|by rewrite lookup_insert|]. by rewrite list_lookup_insert_ne.
  - by apply others_insert.
Qed.
(** size(), max_size() and empty() *)
Theorem C62_size : arr_size = Z.of_nat Size ∧ arr_max_size = Z.of_nat Size ∧ (arr_empty = true ↔ Size = 0).
Proof.
  pose proof (size_eq Hcfg) as E. split; [done|]. split; [exact E|]. unfold arr_empty. rewrite E, Z.eqb_eq. lia.
Qed.
(** copies equal their source, which stays as it is *)
Theorem C62_copy w m x y l :
  reachable w m → m !! x = None → m !! y = Some l →
  run_to (arr_new_copy x y) w
    (λ _ w', (∀ i v, l !! i = Some v → element w' x i v) ∧ others w' m x) (λ e w', e = ElementThrow ∧ shows w' m).
Proof.
  intros Hr Hx Hy. destruct (reachable_srun _ _ Hr) as (_ & _ & n & _ & -> & Hw). pose proof (Hw _ _ Hy) as Hl.
  pose proof (aexec_run (ANewCopy x y) m n Hcfg Hw) as Ho. cbn [sstep] in Ho. rewrite Hx, Hy in Ho. cbn [agrees aexec] in Ho.
  assert (arr_new_copy x y (World m n) = finish tt n (replicate Size m) (<[x:=l]> m)) as Hf.
  { unfold bind, finish in *. destruct (arr_new_copy x y (World m n)) as [[] w'|e w'|f|]; destruct (settle n _) as [[d|] n']; try done; [by injection Ho as ->|by injection Ho as -> ->]. }
  eapply run_to_mono; [eapply (call_run _ m n tt _ _ (λ w', (∀ i v, l !! i = Some v → element w' x i v) ∧ others w' m x)); [exact Hf|]|done|].
  - split; [|by apply others_insert]. intros i v Hi. eapply wf_element; [by apply wf_insert|by rewrite lookup_insert|done].
  - intros e w' (-> & k & d & n' & Hd & ->). split; [done|]. apply lookup_replicate in Hd as [-> _]. by apply wf_shows.
Qed.

(** ** C61 *)
Theorem C61_array w m x l :
  reachable w m → m !! x = Some l → traversed w (arr_begin x) (arr_end x) (arr_rbegin x) (arr_rend x) l.
Proof.
  intros Hr Hx. destruct (reachable_srun _ _ Hr) as (_ & _ & n & _ & -> & Hw). pose proof (Hw _ _ Hx) as Hl. apply spans_traversed.
  exists (first_of x). rewrite Hl. split; [apply noexcept_ok; by eapply data_run|]. split; [by eapply end_run|]. split; [apply noexcept_ok; by eapply end_run|].
  split; [do 2 apply noexcept_ok; by eapply data_run|]. by apply range_run.
Qed.

(** ** C63 *)
Section compare.
Context `{E : !EltCmp V}.
Notation lt := (λ x y, elt_lt x y = true).
Notation eq := (λ x y, elt_eq x y = true).

Lemma from_reads m n x l : m !! x = Some l → length l = Size → reads (World m n) (from (first_of x)) 0 l.
Proof.
  intros Hx Hl i a Hi. pose proof (range_run m n x l Hx Hl) as Hra. unfold from, bind.
  assert (elem l (0 + Z.of_nat (0 + i)) = Some a) as He by (unfold elem; rewrite decide_True by lia; by rewrite Z.add_0_l, Nat2Z.id).
  pose proof (lookup_lt_Some _ _ _ Hi). pose proof (it_add_run _ _ _ 0 (Z.of_nat (0 + i)) Hra) as Ha. rewrite pos_0 in Ha.
  unfold it_index, noexcept, bind. rewrite Ha by (split; lia). rewrite (it_deref_run _ _ _ _ _ Hra He). by rewrite (IterProofs.pread_run _ _ _ _ _ Hra He).
Qed.
Lemma arr_lt_run m n x y a b : wf m → m !! x = Some a → m !! y = Some b →
  ∃ r, arr_lt x y (World m n) = Ok r (World m n) ∧ (r = true ↔ lex_less lt a b).
Proof.
  intros Hw Hx Hy. pose proof (Hw _ _ Hx) as Ha. pose proof (Hw _ _ Hy) as Hb.
  destruct (std_lex_run (World m n) _ _ _ _ (from_reads m n x a Hx Ha) (from_reads m n y b Hy Hb)) as (r & Hr & Hspec). rewrite Ha, Hb in Hr.
  exists r. split; [|done]. apply noexcept_ok. unfold bind at 1. unfold arr_begin at 1. rewrite (noexcept_ok _ _ _ _ (data_run m n x a Hx)).
  unfold bind at 1. rewrite (end_run m n x a Hcfg Hx Ha). unfold bind at 1. unfold arr_begin. rewrite (noexcept_ok _ _ _ _ (data_run m n y b Hy)).
  unfold bind at 1. rewrite (end_run m n y b Hcfg Hy Hb). unfold bind at 1. rewrite (distance_run m n x a Hx Ha). unfold bind at 1. by rewrite (distance_run m n y b Hy Hb).
Qed.
Lemma arr_eq_run m n x y a b : wf m → m !! x = Some a → m !! y = Some b →
  ∃ r, arr_eq x y (World m n) = Ok r (World m n) ∧ (r = true ↔ all_equal eq a b).
Proof.
  intros Hw Hx Hy. pose proof (Hw _ _ Hx) as Ha. pose proof (Hw _ _ Hy) as Hb.
  destruct (std_equal_run (World m n) _ _ _ _ (from_reads m n x a Hx Ha) (from_reads m n y b Hy Hb)) as (r & Hr & Hspec). rewrite Ha, Hb in Hr.
  exists r. split; [|done]. apply noexcept_ok. unfold bind at 1. unfold arr_begin at 1. rewrite (noexcept_ok _ _ _ _ (data_run m n x a Hx)).
  unfold bind at 1. rewrite (end_run m n x a Hcfg Hx Ha). unfold bind at 1. unfold arr_begin. rewrite (noexcept_ok _ _ _ _ (data_run m n y b Hy)).
  unfold bind at 1. rewrite (end_run m n y b Hcfg Hy Hb). unfold bind at 1. rewrite (distance_run m n x a Hx Ha). unfold bind at 1. by rewrite (distance_run m n y b Hy Hb).
Qed.
(** [r] is the answer to the question [P], given without changing anything *)
Definition answer (r : res world bool) w (P : Prop) : Prop := ∃ b, r = Ok b w ∧ (b = true ↔ P).
(** for any element operators < and ==, lawful or not *)
Theorem C63_array_comparisons w m x y a b :
  reachable w m → m !! x = Some a → m !! y = Some b →
  answer (arr_lt x y w) w (lex_less lt a b) ∧ answer (arr_gt x y w) w (lex_less lt b a) ∧
  answer (arr_le x y w) w (¬ lex_less lt b a) ∧ answer (arr_ge x y w) w (¬ lex_less lt a b) ∧
  answer (arr_eq x y w) w (all_equal eq a b) ∧ answer (arr_ne x y w) w (¬ all_equal eq a b).
Proof.
  intros Hr Hx Hy. destruct (reachable_srun _ _ Hr) as (_ & _ & n & _ & -> & Hw).
  destruct (arr_lt_run m n x y a b Hw Hx Hy) as (r1 & H1 & S1). destruct (arr_lt_run m n y x b a Hw Hy Hx) as (r2 & H2 & S2).
  destruct (arr_eq_run m n x y a b Hw Hx Hy) as (r3 & H3 & S3).
  assert (arr_gt x y (World m n) = Ok r2 (World m n)) as H4 by by apply noexcept_ok.
  repeat apply conj.
  - by exists r1.
  - by exists r2.
  - exists (negb r2). split; [|by rewrite <-S2; destruct r2]. apply noexcept_ok. unfold bind. by rewrite H4.
  - exists (negb r1). split; [|by rewrite <-S1; destruct r1]. apply noexcept_ok. unfold bind. by rewrite H1.
  - by exists r3.
  - exists (negb r3). split; [|by rewrite <-S3; destruct r3]. apply noexcept_ok. unfold bind. by rewrite H3.
Qed.
(** if the element type is totally ordered the six operators answer according to one order *)
Theorem C63_array_one_order w m x y a b :
  total_order lt eq → reachable w m → m !! x = Some a → m !! y = Some b →
  ∃ c, let r := answers_for c in
    arr_lt x y w = Ok (a_lt r) w ∧ arr_le x y w = Ok (a_le r) w ∧ arr_gt x y w = Ok (a_gt r) w ∧
    arr_ge x y w = Ok (a_ge r) w ∧ arr_eq x y w = Ok (a_eq r) w ∧ arr_ne x y w = Ok (a_ne r) w.
Proof.
  intros T Hr Hx Hy. destruct (C63_array_comparisons w m x y a b Hr Hx Hy)
    as ((r1 & -> & S1) & (r2 & -> & S2) & (r3 & -> & S3) & (r4 & -> & S4) & (r5 & -> & S5) & (r6 & -> & S6)).
  assert (dec : ∀ u v : V, {elt_lt u v = true} + {¬ elt_lt u v = true}) by (intros u v; destruct (elt_lt u v); [by left|by right]).
  pose proof (lex_total _ _ T dec) as L. pose proof (lex_dec _ eq dec) as D.
  destruct (one_order _ _ _ _ _ _ _ _ _ _ L D S1 S2 S3 S4 S5 S6) as (c & Hc & _). exists c. by rewrite <-Hc.
Qed.
(** and that order is transitive *)
Theorem C63_array_le_transitive w m x y z a b c :
  total_order lt eq → reachable w m → m !! x = Some a → m !! y = Some b → m !! z = Some c →
  arr_le x y w = Ok true w → arr_le y z w = Ok true w → arr_le x z w = Ok true w.
Proof.
  intros T Hr Hx Hy Hz Hxy Hyz.
  assert (dec : ∀ u v : V, {elt_lt u v = true} + {¬ elt_lt u v = true}) by (intros u v; destruct (elt_lt u v); [by left|by right]).
  pose proof (lex_total _ _ T dec) as L. pose proof (lex_dec _ eq dec) as D.
  destruct (C63_array_comparisons w m x y a b Hr Hx Hy) as (_ & _ & (r1 & E1 & S1) & _).
  destruct (C63_array_comparisons w m y z b c Hr Hy Hz) as (_ & _ & (r2 & E2 & S2) & _).
  destruct (C63_array_comparisons w m x z a c Hr Hx Hz) as (_ & _ & (r3 & E3 & S3) & _).
  rewrite E3. f_equal. apply S3. rewrite Hxy in E1. injection E1 as <-. rewrite Hyz in E2. injection E2 as <-.
  by apply (order_le_trans _ _ _ _ _ L D (proj1 S1 eq_refl) (proj1 S2 eq_refl)).
Qed.
End compare.
End props.

(** ** Examples *)
(** arrays of numbers; [100 + v] is what a move leaves *)
Definition cfg (size : nat) (f : nat → bool) : ArrCfg := {|
  V := nat; Size := size; moved v := 100 + v; selfmove v := 200 + v; torn u v := 50; dflt := 0; wbits := 64; fails := f |}.
Lemma cfg_good size f : size < 100 → @cfg_ok (cfg size f).
Proof. intros H. unfold cfg_ok. cbn [wbits Size cfg]. split; [lia|]. change (2 ^ (64 - 1))%Z with 9223372036854775808%Z. lia. Qed.
Definition script_reachable (C : ArrCfg) (f : @world C → gmap nat (list (@V C)) → bool) (os : list (@aop C)) :
  match @srun C os ∅ 0, @arun C os (@init_world C) with Some (_, m, _), Finished _ w => f w m = true | _, _ => False end →
  ∃ w m, @reachable C w m ∧ f w m = true.
Proof.
  destruct (@srun C os ∅ 0) as [[[rs m] n]|] eqn:Hs; [|done]. destruct (@arun C os (@init_world C)) as [rs' w| |] eqn:Ha; [|done..].
  intros H. exists w, m. split; [|done]. by exists os, rs, rs', n.
Qed.
Definition is (l : list nat) (o : option (list nat)) : bool := bool_decide (o = Some l).
Section examples.
Local Instance four : ArrCfg := cfg 4 (λ k, k =? 11).
Local Instance nat_cmp : EltCmp V := {| elt_lt := Nat.ltb; elt_eq := Nat.eqb |}.
(** initialisers, fewer than elements, referring to other arrays; the 12th copy throws in the
    middle of the second fill *)
Definition script : list aop :=
  [ANew 0 [AMove (RVal 5); AMove (RVal 6)]; ANew 1 [AMove (RElem (At 0 1)); ACopy (RElem (At 0 0))]; ANewMove 2 1;
   ASwap 0 2; AFill 0 (RElem (At 0 1)); AWrite (At 2 1) 42; AMoveAssign 1 2; AAt 1 3; AAt 1 4; ABack 2; AGet 2 1; AFill 2 (RVal 7)].
Example C62_case : ∃ w m, reachable w m ∧
  is [5; 5; 5; 5] (m !! 0) && is [5; 42; 0; 0] (m !! 1) && is [7; 7; 50; 100] (m !! 2) &&
  match arun script init_world with
  | Finished rs _ => bool_decide (length rs = 12) && match rs !! 8 with Some (OThrew OutOfRange) => true | _ => false end
  | _ => false
  end = true.
Proof. apply (script_reachable four (λ w m, _) script). by vm_compute. Qed.
Definition three_arrays : list aop :=
  [ANew 0 [AMove (RVal 1); AMove (RVal 2); AMove (RVal 3)]; ANew 1 [AMove (RVal 1); AMove (RVal 2); AMove (RVal 4)];
    ANewCopy 2 0].
(** the hypotheses of the theorems about single calls; comparisons; loops; an array swapped with itself *)
Example C63_case : ∃ w m, reachable w m ∧
  is [1; 2; 3; 0] (m !! 0) && is [1; 2; 4; 0] (m !! 1) && is [1; 2; 3; 0] (m !! 2) &&
  bool_decide ((λ f : nat → nat → M world bool, match f 0 1 w with Ok b _ => b | _ => false end) <$> [arr_lt; arr_le; arr_gt; arr_ge; arr_eq; arr_ne] = [true; true; false; false; false; true]) &&
  bool_decide ((λ f : nat → nat → M world bool, match f 0 2 w with Ok b _ => b | _ => false end) <$> [arr_lt; arr_le; arr_gt; arr_ge; arr_eq; arr_ne] = [false; true; false; true; true; false]) &&
  match range_for 4 (arr_begin 1) (arr_end 1) w with Ok (Some vs) _ => bool_decide (snd <$> vs = [1; 2; 4; 0]) | _ => false end &&
  match range_for_reverse 4 (arr_rbegin 1) (arr_rend 1) w with Ok (Some vs) _ => bool_decide (snd <$> vs = [0; 4; 2; 1]) | _ => false end &&
  match arr_swap 0 0 w with Stuck Precondition => true | _ => false end &&
  match arr_index 0 4 w with Stuck OutOfBounds => true | _ => false end = true.
Proof.
  apply (script_reachable four (λ w m, _) three_arrays). by vm_compute.
Qed.
End examples.
(** arrays of size 0 *)
Example C62_empty_case : ∃ w m, @reachable (cfg 0 (λ _, false)) w m ∧
  is [] (m !! 0) && is [] (m !! 1) &&
  match @arr_begin (cfg 0 (λ _, false)) 0 w with Ok Null _ => true | _ => false end &&
  match @arr_end (cfg 0 (λ _, false)) 0 w with Ok Null _ => true | _ => false end &&
  match @arr_front (cfg 0 (λ _, false)) 0 w with Stuck NullDeref => true | _ => false end &&
  match @arr_at (cfg 0 (λ _, false)) 0 0 w with Exn OutOfRange _ => true | _ => false end = true.
Proof. apply (script_reachable (cfg 0 (λ _, false)) (λ w m, _) [ANew 0 []; ANewCopy 1 0; AFill 0 (@RVal (cfg 0 (λ _, false)) 3); ASwap 0 0; ASwap 0 1; AMoveAssign 1 1]). by vm_compute. Qed.

Print Assumptions C62_array_is_sequence.
Print Assumptions C62_array_call.
Print Assumptions C62_new.
Print Assumptions C62_fill.
Print Assumptions C62_swap.
Print Assumptions C62_at.
Print Assumptions C62_access.
Print Assumptions C62_write.
Print Assumptions C62_size.
Print Assumptions C62_copy.
Print Assumptions C61_array.
Print Assumptions C63_array_comparisons.
Print Assumptions C63_array_one_order.
Print Assumptions C63_array_le_transitive.
