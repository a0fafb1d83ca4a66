(** Exact behaviour of the memory primitives, the algorithms and storage_t of StringModel.v. *)
From stdpp Require Import prelude gmap.
From Coq Require Import ZArith Lia.
From Verif Require Import Cpp StringModel StringSpec.
Local Open Scope nat_scope.

Lemma bind_ok {S A B} (m : M S A) (k : A → M S B) s a s' :
  m s = Ok a s' → bind m k s = k a s'.
Proof. unfold bind. by intros ->. Qed.
Lemma run_to_eq {S A} (m : M S A) s a s' (Q : A → S → Prop) E :
  m s = Ok a s' → Q a s' → run_to m s Q E.
Proof. unfold run_to. by intros ->. Qed.
Lemma run_to_bind_ok {S A B} (m : M S A) (k : A → M S B) s a s' Q E :
  m s = Ok a s' → run_to (k a) s' Q E → run_to (bind m k) s Q E.
Proof. unfold run_to, bind. by intros ->. Qed.
Ltac sp := repeat match goal with |- _ ∧ _ => split end.

(** ** Lists *)
(** the slots from [i] on overwritten with [vs] *)
Definition write_at {A} (i : nat) (vs c : list A) : list A := take i c ++ vs ++ drop (i + length vs) c.

Lemma write_at_nil {A} i (c : list A) : write_at i [] c = c.
Proof. unfold write_at. cbn [app length]. rewrite Nat.add_0_r. apply take_drop. Qed.
Lemma write_at_length {A} i (vs c : list A) : i + length vs ≤ length c → length (write_at i vs c) = length c.
Proof. intros. unfold write_at. rewrite !app_length, take_length, drop_length. lia. Qed.
Lemma write_at_cons {A} i (v : A) vs c : i < length c →
  write_at (S i) vs (<[i:=v]> c) = write_at i (v :: vs) c.
Proof.
  intros Hi. unfold write_at. cbn [length].
  rewrite drop_insert_gt by lia.
  assert (take (S i) (<[i:=v]> c) = take i c ++ [v]) as ->.
  { apply list_eq. intros j. destruct (decide (j < i)).
    - rewrite lookup_take by lia. rewrite list_lookup_insert_ne by lia.
      rewrite lookup_app_l by (rewrite take_length; lia). by rewrite lookup_take.
    - destruct (decide (j = i)) as [->|].
      + rewrite lookup_take by lia. rewrite list_lookup_insert by done.
        rewrite lookup_app_r by (rewrite take_length; lia).
        rewrite take_length. replace (i - i `min` length c) with 0 by lia. done.
      + rewrite lookup_take_ge by lia. symmetry. apply lookup_ge_None.
        rewrite app_length, take_length. cbn [length]. lia. }
  rewrite <-app_assoc. cbn [app]. replace (i + S (length vs)) with (S i + length vs) by lia. done.
Qed.
Lemma write_at_app {A} (l vs c1 c2 : list A) i : i = length l → length vs = length c1 →
  write_at i vs (l ++ c1 ++ c2) = l ++ vs ++ c2.
Proof.
  intros -> Hv. unfold write_at. rewrite take_app_alt by done. f_equal. f_equal.
  rewrite app_assoc. rewrite drop_app_alt; [done|]. rewrite app_length. lia.
Qed.
Lemma write_at_snoc {A} i (vs c : list A) v : i + length vs < length c →
  write_at i vs (<[i + length vs:=v]> c) = write_at i (vs ++ [v]) c.
Proof.
  intros Hi. unfold write_at. rewrite app_length. cbn [length].
  rewrite take_insert by lia. rewrite <-app_assoc. f_equal. f_equal.
  apply list_eq. intros j. rewrite lookup_drop. destruct (decide (j = 0)) as [->|].
  - rewrite Nat.add_0_r. rewrite list_lookup_insert by lia. done.
  - rewrite list_lookup_insert_ne by lia. destruct j as [|j]; [done|].
    rewrite lookup_app_r by (cbn [length]; lia). rewrite lookup_drop. cbn [length]. f_equal. lia.
Qed.

Section proofs.
Context `{C : StrCfg}.
Notation bufid := (nat + nat)%type.
Notation buffer := (list (option char)).

Definition mins (p : bufid) (c : buffer) (w : world) : world := with_mem (<[p:=c]> (mem w)) w.
Lemma mins_id p c w : mem w !! p = Some c → mins p c w = w.
Proof. intros H. unfold mins. rewrite insert_id by done. by destruct w. Qed.
Lemma mins_mins p c c' w : mins p c (mins p c' w) = mins p c w.
Proof. unfold mins, with_mem. cbn [mem objs nextb nalloc ncopied]. by rewrite insert_insert. Qed.
Lemma mem_mins p c w : mem (mins p c w) = <[p:=c]> (mem w).
Proof. done. Qed.

(** ** Slots *)
Lemma rd_eq w p c i v : mem w !! p = Some c → c !! i = Some (Some v) → rd (p, i) w = Ok v w.
Proof. intros H1 H2. unfold rd. cbn [fst snd]. by rewrite H1, H2. Qed.
Lemma wr_eq w p c i v : mem w !! p = Some c → i < length c →
  wr (p, i) v w = Ok tt (mins p (<[i:=Some v]> c) w).
Proof.
  intros H1 H2. unfold wr. cbn [fst snd]. rewrite H1.
  by rewrite (proj2 (Nat.ltb_lt _ _)).
Qed.

(** ** Algorithms *)
(** [s] yields [v] after the first [k] slots from [lo] on of buffer [p] were overwritten *)
Definition den (h : gmap bufid buffer) (p : bufid) (lo k : nat) (s : chsrc) (v : option char) : Prop :=
  match s with
  | CVal o => o = v
  | CPtr (q, i) => is_Some v ∧ ∃ d, h !! q = Some d ∧ d !! i = Some v ∧ (q = p → i < lo ∨ lo + k ≤ i)
  end.

Lemma copy_loop_run from vs : ∀ w p c j k0,
  mem w !! p = Some c → j + k0 + length vs ≤ length c →
  (∀ k v, vs !! k = Some v → den (mem w) p (j + k0) k (from (k0 + k)) v) →
  run_to (copy_loop from (p, j) k0 (length vs)) w
    (λ _ w', Forall is_Some vs ∧ w' = mins p (write_at (j + k0) vs c) w)
    (λ e w', e = ElementThrow ∧ ¬ Forall is_Some vs ∧ ∃ c', length c' = length c ∧ w' = mins p c' w).
Proof.
  induction vs as [|v vs IH]; intros w p c j k0 Hp Hlen Hsrc; cbn [length copy_loop].
  { apply run_to_ret. split; [done|]. rewrite write_at_nil. by rewrite mins_id. }
  pose proof (Hsrc 0 v eq_refl) as H0. rewrite Nat.add_0_r in H0.
  cbn [length] in Hlen.
  assert (Hrd : match v with Some ch => rd_src (from k0) w = Ok ch w | None => rd_src (from k0) w = Exn ElementThrow w end).
  { destruct (from k0) as [o|[q i]]; cbn [den rd_src] in *.
    - subst o. by destruct v.
    - destruct H0 as ([ch ->] & d & Hq & Hi & _). by eapply rd_eq. }
  apply run_to_bind. unfold run_to at 1. destruct v as [ch|].
  2:{ rewrite Hrd. split; [done|]. split; [by inversion 1 as [|? ? [? ?]]|].
      exists c. split; [done|]. by rewrite mins_id. }
  rewrite Hrd. unfold padd. cbn [fst snd].
  eapply run_to_bind_ok; [apply wr_eq; [exact Hp|lia]|].
  eapply run_to_mono; [eapply (IH _ p (<[j + k0:=Some ch]> c) j (S k0))|..].
  - rewrite mem_mins. by rewrite lookup_insert.
  - rewrite insert_length. lia.
  - intros k u Hk. specialize (Hsrc (S k) u Hk).
    replace (S k0 + k) with (k0 + S k) by lia.
    destruct (from (k0 + S k)) as [o|[q i]]; cbn [den] in *; [done|].
    destruct Hsrc as (? & d & Hq & Hi & Hne). split; [done|].
    rewrite mem_mins. destruct (decide (q = p)) as [->|Hqp].
    + rewrite lookup_insert. eexists. split; [done|]. specialize (Hne eq_refl).
      assert (d = c) as -> by congruence.
      rewrite list_lookup_insert_ne by lia. split; [done|]. intros _. lia.
    + rewrite lookup_insert_ne by done. exists d. sp; done.
  - intros _ w' [Ha ->]. split; [by constructor; [eauto|]|].
    rewrite mins_mins. f_equal. replace (j + S k0) with (S (j + k0)) by lia.
    apply write_at_cons. lia.
  - intros e w' (-> & Hn & c' & Hc' & ->). split; [done|].
    split; [intros Ha; apply Hn; by inversion Ha|].
    exists c'. rewrite insert_length in Hc'. split; [done|]. by rewrite mins_mins.
Qed.
Lemma copy_from_run from vs w p c j :
  mem w !! p = Some c → j + length vs ≤ length c →
  (∀ k v, vs !! k = Some v → den (mem w) p j k (from k) v) →
  run_to (copy_from from (p, j) (length vs)) w
    (λ _ w', Forall is_Some vs ∧ w' = mins p (write_at j vs c) w)
    (λ e w', e = ElementThrow ∧ ¬ Forall is_Some vs ∧ ∃ c', length c' = length c ∧ w' = mins p c' w).
Proof.
  intros Hp Hl Hs. pose proof (copy_loop_run from vs w p c j 0 Hp) as H.
  rewrite Nat.add_0_r in H. by apply H.
Qed.
Lemma Forall_Some_fmap {A} (l : list A) : Forall is_Some (Some <$> l).
Proof. apply Forall_fmap, Forall_forall. intros ? _. cbn. eauto. Qed.
Lemma copy_from_eq from (l : list char) w p c j :
  mem w !! p = Some c → j + length l ≤ length c →
  (∀ k v, l !! k = Some v → den (mem w) p j k (from k) (Some v)) →
  copy_from from (p, j) (length l) w = Ok tt (mins p (write_at j (Some <$> l) c) w).
Proof.
  intros Hp Hl Hs. pose proof (copy_from_run from (Some <$> l) w p c j Hp) as H.
  rewrite fmap_length in H. specialize (H Hl). unfold run_to in H.
  destruct (copy_from from (p, j) (length l) w) as [[] w'|e w'|f|].
  - destruct H as [_ ->]; [|done]. intros k v. rewrite list_lookup_fmap.
    destruct (l !! k) eqn:E; [|done]. cbn. intros [= <-]. by apply Hs.
  - exfalso. destruct H as (_ & Hn & _); [|apply Hn, Forall_Some_fmap].
    intros k v. rewrite list_lookup_fmap. destruct (l !! k) eqn:E; [|done]. cbn. intros [= <-]. by apply Hs.
  - destruct H. intros k v. rewrite list_lookup_fmap. destruct (l !! k) eqn:E; [|done]. cbn. intros [= <-]. by apply Hs.
  - destruct H. intros k v. rewrite list_lookup_fmap. destruct (l !! k) eqn:E; [|done]. cbn. intros [= <-]. by apply Hs.
Qed.

(** copying initialised characters between different buffers, or downwards in one *)
Lemma copy_n_eq (l : list char) w q d i p c j :
  mem w !! q = Some d → (∀ k v, l !! k = Some v → d !! (i + k) = Some (Some v)) →
  mem w !! p = Some c → j + length l ≤ length c → (q = p → j ≤ i ∨ i + length l ≤ j) →
  copy_n (q, i) (length l) (p, j) w = Ok tt (mins p (write_at j (Some <$> l) c) w).
Proof.
  intros Hq Hd Hp Hl Hov. unfold copy_n. apply copy_from_eq; [done..|].
  intros k v Hk. unfold padd. cbn [fst snd den]. split; [eauto|]. exists d. split; [done|].
  split; [by apply Hd|]. intros E. apply lookup_lt_Some in Hk. specialize (Hov E). lia.
Qed.

Lemma copy_backward_eq (l : list char) : ∀ w p c first d,
  mem w !! p = Some c → (∀ k v, l !! k = Some v → c !! (first + k) = Some (Some v)) →
  first ≤ d → d + length l ≤ length c →
  copy_backward (p, 0) first (length l) (d + length l) w = Ok tt (mins p (write_at d (Some <$> l) c) w).
Proof.
  induction l as [|ch l IH] using rev_ind; intros w p c first d Hp Hc Hfd Hl; cbn [length copy_backward].
  { unfold ret. cbn [fmap list_fmap]. rewrite write_at_nil. by rewrite mins_id. }
  rewrite app_length in *. cbn [length] in *.
  replace (length l + 1) with (S (length l)) by lia. cbn [copy_backward].
  replace (d + S (length l)) with (S (d + length l)) by lia.
  unfold padd. cbn [fst snd]. rewrite Nat.add_0_l.
  erewrite bind_ok.
  2:{ eapply rd_eq; [exact Hp|]. apply Hc. rewrite lookup_app_r by lia. by rewrite Nat.sub_diag. }
  erewrite bind_ok; [|apply wr_eq; [exact Hp|lia]].
  erewrite (IH _ p (<[d + length l:=Some ch]> c)).
  - rewrite mins_mins. do 2 f_equal. rewrite fmap_app. cbn [fmap list_fmap].
    rewrite <-(fmap_length Some l). apply write_at_snoc. rewrite fmap_length. lia.
  - rewrite mem_mins. by rewrite lookup_insert.
  - intros k v Hk. pose proof (lookup_lt_Some _ _ _ Hk). rewrite list_lookup_insert_ne by lia. apply Hc.
    by apply lookup_app_l_Some.
  - done.
  - rewrite insert_length. lia.
Qed.

Lemma fill_n_eq n ch : ∀ w p c j, mem w !! p = Some c → j + n ≤ length c →
  fill_n (p, j) n ch w = Ok tt (mins p (write_at j (replicate n (Some ch)) c) w).
Proof.
  induction n as [|n IH]; intros w p c j Hp Hl; cbn [fill_n replicate].
  { unfold ret. rewrite write_at_nil. by rewrite mins_id. }
  erewrite bind_ok; [|apply wr_eq; [exact Hp|lia]]. unfold padd. cbn [fst snd].
  rewrite (IH _ p (<[j:=Some ch]> c)).
  - rewrite mins_mins. do 2 f_equal. rewrite Nat.add_1_r. apply write_at_cons. lia.
  - rewrite mem_mins. by rewrite lookup_insert.
  - rewrite insert_length. lia.
Qed.

Lemma forallb_Some (l : list char) :
  forallb (λ s : option char, match s with None => false | Some _ => true end) (Some <$> l) = true.
Proof. induction l; [done|]. cbn [fmap list_fmap forallb]. done. Qed.
Lemma rotate_eq w p A (xs ys : list char) B i j k :
  i = length A → j = length A + length xs → k = length A + length xs + length ys →
  mem w !! p = Some (A ++ (Some <$> (xs ++ ys)) ++ B) →
  rotate (p, 0) i j k w = Ok tt (mins p (A ++ (Some <$> (ys ++ xs)) ++ B) w).
Proof.
  intros -> -> -> Hb. unfold rotate.
  destruct (Nat.eqb_spec (length A) (length A + length xs)) as [e1|n1].
  { destruct xs; cbn [length] in *; [|lia]. cbn [orb app] in *. rewrite app_nil_r. by rewrite mins_id. }
  destruct (Nat.eqb_spec (length A + length xs) (length A + length xs + length ys)) as [e2|n2].
  { destruct ys; cbn [length] in *; [|lia]. cbn [orb app] in *. rewrite app_nil_r in Hb. by rewrite mins_id. }
  cbn [orb fst snd]. rewrite Hb. rewrite !Nat.add_0_l.
  rewrite (proj2 (Nat.leb_le _ _)) by lia. rewrite (proj2 (Nat.leb_le _ _)) by lia.
  rewrite (proj2 (Nat.leb_le _ _)) by (rewrite !app_length, fmap_length, app_length; lia).
  cbn [andb negb].
  assert (Htk : drop (length A) (A ++ (Some <$> xs ++ ys) ++ B) = (Some <$> xs) ++ (Some <$> ys) ++ B).
  { rewrite drop_app_le by lia. rewrite drop_all. cbn [app]. by rewrite fmap_app, <-app_assoc. }
  rewrite Htk.
  replace (length A + length xs + length ys - length A) with (length xs + length ys) by lia.
  replace (length A + length xs + length ys - (length A + length xs)) with (length ys) by lia.
  replace (length A + length xs - length A) with (length xs) by lia.
  assert (take (length xs + length ys) ((Some <$> xs) ++ (Some <$> ys) ++ B) = Some <$> (xs ++ ys)) as ->.
  { rewrite app_assoc, <-fmap_app.
    rewrite firstn_app, fmap_length, app_length, Nat.sub_diag. cbn [take].
    rewrite app_nil_r. apply firstn_all2. by rewrite fmap_length, app_length. }
  rewrite forallb_Some.
  unfold mins. do 3 f_equal. rewrite !fmap_app.
  rewrite (firstn_app _ A), Nat.sub_diag, firstn_all. cbn [take]. rewrite app_nil_r.
  f_equal. rewrite <-drop_drop, drop_app_le by lia. rewrite drop_all. cbn [app].
  rewrite <-!app_assoc.
  rewrite (drop_app_alt (Some <$> xs)) by by rewrite fmap_length.
  rewrite (firstn_app _ (Some <$> ys)), fmap_length, Nat.sub_diag. cbn [take]. rewrite app_nil_r.
  rewrite (firstn_all2 (Some <$> ys)) by by rewrite fmap_length.
  f_equal.
  rewrite (firstn_app _ (Some <$> xs)), fmap_length, Nat.sub_diag. cbn [take]. rewrite app_nil_r.
  rewrite (firstn_all2 (Some <$> xs)) by by rewrite fmap_length.
  f_equal. rewrite !app_assoc. apply drop_app_alt.
  by rewrite !app_length, !fmap_length.
Qed.

Lemma load_eq (l : list char) : ∀ w p c i,
  mem w !! p = Some c → (∀ k v, l !! k = Some v → c !! (i + k) = Some (Some v)) →
  load (p, i) (length l) w = Ok l w.
Proof.
  induction l as [|ch l IH]; intros w p c i Hp Hc; cbn [length load]; [done|].
  erewrite bind_ok; [|eapply rd_eq; [exact Hp|]; specialize (Hc 0 ch eq_refl); by rewrite Nat.add_0_r in Hc].
  unfold padd. cbn [fst snd]. erewrite bind_ok; [done|].
  eapply IH; [exact Hp|]. intros k v Hk. specialize (Hc (S k) v Hk).
  replace (i + 1 + k) with (i + S k) by lia. done.
Qed.
End proofs.
