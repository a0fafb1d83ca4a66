(** Property C60: string_ref; and C39 for the literals of string_ref. *)
From stdpp Require Import prelude gmap.
From Coq Require Import ZArith NArith Lia.
From Verif Require Import Cpp IterModel IterSpec IterProofs ViewModel ArrayRefModel ArrayRefSpec ArrayRefProofs StringRefModel StringRefSpec StringRefProofs.
From Verif Require StringOrder StringSpec StringOrderProofs.
Local Open Scope Z_scope.

Section props.
Context `{C : ViewCfg} `{H : StringOrder.HashFn} (Hw : 1 ≤ wbits).
Notation state := (state char).
Notation world := (world char).
Implicit Types (w : world) (s : state) (l a b : list char).

(** every history inside the contract runs to its end with the results of the same history on
    parts of arrays of characters *)
Theorem C60_string_ref_is_view os rs s :
  srun os init_state = Some (rs, s) → ∃ w : world, srrun os init_world = Finished rs w ∧ shows w s.
Proof.
  intros Hs. destruct (srrun_rep os Hw _ _ _ wf_init Hs) as [E _]. exists (rep s). split; [|apply rep_shows]. rewrite <-E. f_equal.
  unfold rep. cbn [s_arr s_view init_state]. by rewrite fmap_empty.
Qed.
(** one more call *)
Theorem C60_string_ref_call w s o :
  reachable w s →
  match sstep o s with
  | Bad => True
  | Done r s' => ∃ w', sexec o w = Ok r w' ∧ reachable w' s' ∧ shows w' s'
  | Throws e => sexec o w = Exn e w
  end.
Proof.
  intros Hr. pose proof (sr_reachable_rep _ _ Hw Hr) as [-> Hwf]. pose proof (sexec_rep o s Hw Hwf) as Ho.
  destruct (sstep o s) as [|r s'|e] eqn:E; [done| |done]. exists (rep s'). split; [done|]. split; [|apply rep_shows].
  destruct Hr as (os & rs & Hs & Ha). exists (os ++ [o]), (rs ++ [r]).
  assert (∀ os s0 rs0, srun os s0 = Some (rs0, s) → srun (os ++ [o]) s0 = Some (rs0 ++ [r], s')) as Hsapp.
  { clear -E. induction os as [|a os IH]; intros s0 rs0 Hs; cbn [srun app] in *.
    - injection Hs as <- <-. by rewrite E.
    - destruct (sstep a s0) as [|r1 s1|e]; [done| |].
      + destruct (srun os s1) as [[rs1 s2]|] eqn:E1; [|done]. injection Hs as <- <-. by rewrite (IH _ _ E1).
      + destruct (srun os s0) as [[rs1 s2]|] eqn:E1; [|done]. injection Hs as <- <-. by rewrite (IH _ _ E1). }
  split; [by apply Hsapp|].
  assert (∀ os w0 rs0, srrun os w0 = Finished rs0 (rep s) → srrun (os ++ [o]) w0 = Finished (rs0 ++ [r]) (rep s')) as Haapp.
  { clear -Ho. cbn [agrees] in Ho. induction os as [|a os IH]; intros w0 rs0 Hs; cbn [srrun app] in *.
    - injection Hs as <- ->. by rewrite Ho.
    - destruct (sexec a w0) as [r1 w1|e w1|f|]; [| |done|done].
      + destruct (srrun os w1) as [rs1 w2|f|] eqn:E1; [|done|done]. injection Hs as <- ->. by rewrite (IH _ _ E1).
      + destruct (srrun os w1) as [rs1 w2|f|] eqn:E1; [|done|done]. injection Hs as <- ->. by rewrite (IH _ _ E1). }
  by apply Haapp.
Qed.

(** ** What a view shows to the program *)
(** size(), and the characters read through operator[] *)
Definition reads_as w (x : nat) l : Prop :=
  sr_size x w = Ok (Z.of_nat (length l)) w ∧
  ∀ i c, l !! i = Some c → ∃ p, sr_index x (Z.of_nat i) w = Ok p w ∧ pread p w = Ok c w.
(** in [w'], [z] is characters [o], ..., [o + n - 1] of what [x] is in [w], the same objects *)
Definition is_part w' (z : nat) w (x : nat) l (o n : nat) : Prop :=
  reads_as w' z (take n (drop o l)) ∧
  ∀ i, (i < n)%nat → (o + i < length l)%nat → ∃ p, sr_index z (Z.of_nat i) w' = Ok p w' ∧ sr_index x (Z.of_nat (o + i)) w = Ok p w.

Lemma elems_usable s x v l : wf s → s_view s !! x = Some v → elems s v = Some l → usable s v.
Proof.
  intros Hwf Hx Hl. assert (view_of s x = Some v) as Hv by (unfold view_of; by rewrite Hx, Hl). by apply (view_usable _ _ _ Hwf) in Hv as [_ ?].
Qed.
Lemma range_reads s x v l : s_view s !! x = Some v → usable s v → elems s v = Some l → reads_as (rep s) x l.
Proof.
  intros Hx Hv Hl. destruct (elems_range _ _ _ Hv Hl) as [Hr Hc]. split; [rewrite Hc; by apply sr_size_rep|].
  intros i c Hi. pose proof (lookup_lt_Some _ _ _ Hi). exists (pos (start v) (Z.of_nat i)). split.
  - eapply sr_index_rep; [done|done|]. destruct v as [|b o n]; [by injection Hl as <-|]. cbn [place count] in *. by rewrite decide_True by lia.
  - eapply pread_run; [done|]. unfold elem. by rewrite decide_True, Nat2Z.id by lia.
Qed.
Lemma sub_part s x v l z (o n : nat) : wf s → s_view s !! x = Some v → elems s v = Some l → (o + n ≤ length l)%nat →
  ∃ u, sub v (Z.of_nat o) (Z.of_nat n) = Some u ∧ is_part (rep (set_view s z u)) z (rep s) x l o n.
Proof.
  intros Hwf Hx Hl Hn. pose proof (elems_usable _ _ _ _ Hwf Hx Hl) as Hv. destruct (elems_range _ _ _ Hv Hl) as [Hr Hc].
  unfold sub. rewrite decide_True by lia. eexists. split; [reflexivity|].
  set (u := match v with PNone => PNone | PSub b o' _ => PSub b (o' + Z.of_nat o) (Z.of_nat n) end).
  assert (Hu : s_view (set_view s z u) !! z = Some u) by (cbn [s_view set_view]; by rewrite lookup_insert).
  assert (Huu : usable (set_view s z u) u).
  { destruct v as [|b o' n']; [done|]. destruct Hv as (? & ? & l' & Hl' & ? & ?). cbn [u usable set_view s_arr count] in *.
    split; [lia|]. split; [lia|]. exists l'. split; [done|]. lia. }
  assert (Hlu : elems (set_view s z u) u = Some (take n (drop o l))).
  { destruct v as [|b o' n']; cbn [u elems set_view s_arr] in *.
    - injection Hl as <-. destruct o, n; done.
    - destruct (s_arr s !! b) as [l'|]; [|done]. case_decide; [|done]. injection Hl as <-. cbn [count] in Hc. destruct Hv as (? & ? & _).
      rewrite decide_True by lia. f_equal. rewrite skipn_firstn_comm, firstn_firstn, drop_drop, Nat2Z.id. f_equal; [lia|]. f_equal. lia. }
  split; [by eapply range_reads|].
  intros i Hi Hi2. destruct v as [|b o' n']; [injection Hl as <-; cbn in Hi2; lia|]. cbn [count] in Hc.
  exists (At b (o' + Z.of_nat (o + i))). split.
  - eapply sr_index_rep; [exact Hu|done|]. cbn [place u]. rewrite decide_True by lia. do 2 f_equal. lia.
  - eapply sr_index_rep; [exact Hx|done|]. cbn [place]. by rewrite decide_True by lia.
Qed.
Lemma done_unit (m : M world unit) s s' : agrees (bind m (λ _, ret BUnit)) s (Done BUnit s') → m (rep s) = Ok tt (rep s').
Proof. cbn [agrees]. unfold bind. destruct (m (rep s)) as [[] w|? ?|?|]; try done. by intros [= ->]. Qed.

(** ** Constructors *)
(** from a C string: the characters before the first null character *)
Theorem C60_from_c_string w s x (b : nat) l (o : nat) a r :
  reachable w s → s_view s !! x = None → s_arr s !! b = Some l → (o ≤ length l)%nat → drop o l = a ++ NUL :: r → NUL ∉ a →
  ∃ w', sr_new_cstr x (At b (Z.of_nat o)) w = Ok tt w' ∧ arrs w' = arrs w ∧ reads_as w' x a ∧ sr_data x w' = Ok (At b (Z.of_nat o)) w'.
Proof.
  intros Hr Hx Hb Ho Hl Ha. destruct (sr_reachable_rep _ _ Hw Hr) as [-> Hwf].
  pose proof (f_equal length Hl) as Hlen. rewrite drop_length, app_length in Hlen. cbn [length] in Hlen.
  set (v := PSub b (Z.of_nat o) (Z.of_nat (length a))).
  assert (sr_new_cstr x (At b (Z.of_nat o)) (rep s) = Ok tt (rep (set_view s x v))) as ->.
  { apply done_unit. pose proof (sexec_rep (SNewCstr x (At b (Z.of_nat o))) s Hw Hwf) as Hs. cbn [sstep sexec tail_at] in Hs.
    rewrite Hb, decide_True, Nat2Z.id, Hl in Hs by lia. rewrite (proj2 (zlen_spec _ _) (zlength_intro a r Ha)) in Hs.
    cbn [from_to] in Hs. rewrite Hb, decide_True in Hs by lia. unfold make in Hs. by rewrite Hx in Hs. }
  eexists. split; [done|]. split; [done|].
  assert (Hxv : s_view (set_view s x v) !! x = Some v) by (cbn [s_view set_view]; by rewrite lookup_insert).
  split; [|by rewrite (sr_data_rep _ _ _ Hxv)]. eapply range_reads; [done| |].
  - cbn [usable v set_view s_arr]. split; [lia|]. split; [lia|]. exists l. split; [done|]. split; [lia|]. by eapply (proj1 Hwf).
  - cbn [elems v set_view s_arr]. rewrite Hb, decide_True by lia. by rewrite !Nat2Z.id, Hl, take_app.
Qed.
(** from a pointer and a size *)
Theorem C60_from_size w s x (b : nat) l (o n : nat) :
  reachable w s → s_view s !! x = None → s_arr s !! b = Some l → (o + n ≤ length l)%nat →
  ∃ w', sr_new_count x (At b (Z.of_nat o)) (Z.of_nat n) w = Ok tt w' ∧ arrs w' = arrs w ∧ reads_as w' x (take n (drop o l)) ∧
    sr_data x w' = Ok (At b (Z.of_nat o)) w'.
Proof.
  intros Hr Hx Hb Ho. destruct (sr_reachable_rep _ _ Hw Hr) as [-> Hwf]. set (v := PSub b (Z.of_nat o) (Z.of_nat n)).
  rewrite (sr_from_to_rep s x _ _ v) by (cbn [from_to]; by rewrite Hb, decide_True by lia).
  eexists. split; [done|]. split; [done|].
  assert (Hxv : s_view (set_view s x v) !! x = Some v) by (cbn [s_view set_view]; by rewrite lookup_insert).
  split; [|by rewrite (sr_data_rep _ _ _ Hxv)]. eapply range_reads; [done| |].
  - cbn [usable v set_view s_arr]. split; [lia|]. split; [lia|]. exists l. split; [done|]. split; [lia|]. by eapply (proj1 Hwf).
  - cbn [elems v set_view s_arr]. rewrite Hb, decide_True by lia. by rewrite !Nat2Z.id.
Qed.
(** to std::string_view and back: the pointer and size of the view, and an equal view *)
Theorem C60_string_view_round_trip w s x v l z :
  reachable w s → s_view s !! x = Some v → elems s v = Some l → s_view s !! z = None →
  ∃ p w', sr_view x w = Ok (p, Z.of_nat (length l)) w ∧ sr_data x w = Ok p w ∧
    (∀ i c, l !! i = Some c → ∃ q, sr_index x (Z.of_nat i) w = Ok q w ∧ padd p (Z.of_nat i) w = Ok q w ∧ pread q w = Ok c w) ∧
    sr_new_view z (p, Z.of_nat (length l)) w = Ok tt w' ∧ arrs w' = arrs w ∧ views w' !! z = views w !! x.
Proof.
  intros Hr Hx Hl Hz. destruct (sr_reachable_rep _ _ Hw Hr) as [-> Hwf]. pose proof (elems_usable _ _ _ _ Hwf Hx Hl) as Hv.
  destruct (elems_range _ _ _ Hv Hl) as [Hra Hc]. exists (start v), (rep (set_view s z v)).
  split; [rewrite Hc; by apply sr_view_rep|]. split; [by apply sr_data_rep|]. split; [|split; [|split; [done|]]].
  - intros i c Hi. destruct (range_reads _ _ _ _ Hx Hv Hl) as [_ Hi2]. destruct (Hi2 _ _ Hi) as (q & Hq & Hp). exists q.
    split; [done|]. split; [|done]. pose proof (lookup_lt_Some _ _ _ Hi). rewrite (usable_padd _ _ _ Hv) by lia. f_equal.
    assert (place v (Z.of_nat i) = Some (pos (start v) (Z.of_nat i))) as Hpl.
    { destruct v as [|b o n]; [by injection Hl as <-|]. cbn [place count] in *. by rewrite decide_True by lia. }
    rewrite (sr_index_rep _ _ _ _ _ Hx Hv Hpl) in Hq. by injection Hq.
  - apply noexcept_ok. cbn [fst snd]. apply sr_from_to_rep. rewrite <-(pos_0 (start v)). apply sub_from_to; [done|]. unfold sub.
    rewrite decide_True by lia. rewrite Hc. destruct v as [|b o n]; [done|]. cbn [count]. do 2 f_equal. lia.
  - cbn [views rep set_view s_view]. by rewrite !lookup_fmap, lookup_insert, Hx.
Qed.

(** ** Parts *)
Theorem C60_remove_prefix w s x v l (n : nat) :
  reachable w s → s_view s !! x = Some v → elems s v = Some l → (n ≤ length l)%nat →
  ∃ w', sr_remove_prefix x (Z.of_nat n) w = Ok tt w' ∧ arrs w' = arrs w ∧ is_part w' x w x l n (length l - n) ∧ reads_as w' x (drop n l) ∧
    ∀ y, y ≠ x → views w' !! y = views w !! y.
Proof.
  intros Hr Hx Hl Hn. destruct (sr_reachable_rep _ _ Hw Hr) as [-> Hwf]. pose proof (elems_usable _ _ _ _ Hwf Hx Hl) as Hv.
  destruct (elems_range _ _ _ Hv Hl) as [_ Hc]. destruct (sub_part s x v l x n (length l - n) Hwf Hx Hl) as (u & Hu & Hp); [lia|].
  exists (rep (set_view s x u)). split; [|split; [done|split; [done|split]]].
  - apply done_unit. pose proof (sexec_rep (SRemovePrefix x (Z.of_nat n)) s Hw Hwf) as Hs. cbn [sstep sexec] in Hs.
    unfold look, change, view_of in Hs. rewrite Hx, Hl in Hs. replace (count v - Z.of_nat n) with (Z.of_nat (length l - n)) in Hs by lia.
    by rewrite Hu in Hs.
  - destruct Hp as [Hp _]. by rewrite take_ge in Hp by (rewrite drop_length; lia).
  - intros y Hy. cbn [views rep set_view s_view]. by rewrite !lookup_fmap, lookup_insert_ne.
Qed.
Theorem C60_remove_suffix w s x v l (n : nat) :
  reachable w s → s_view s !! x = Some v → elems s v = Some l → (n ≤ length l)%nat →
  ∃ w', sr_remove_suffix x (Z.of_nat n) w = Ok tt w' ∧ arrs w' = arrs w ∧ is_part w' x w x l 0 (length l - n) ∧ reads_as w' x (take (length l - n) l) ∧
    ∀ y, y ≠ x → views w' !! y = views w !! y.
Proof.
  intros Hr Hx Hl Hn. destruct (sr_reachable_rep _ _ Hw Hr) as [-> Hwf]. pose proof (elems_usable _ _ _ _ Hwf Hx Hl) as Hv.
  destruct (elems_range _ _ _ Hv Hl) as [_ Hc]. destruct (sub_part s x v l x 0 (length l - n) Hwf Hx Hl) as (u & Hu & Hp); [lia|].
  exists (rep (set_view s x u)). split; [|split; [done|split; [done|split]]].
  - apply done_unit. pose proof (sexec_rep (SRemoveSuffix x (Z.of_nat n)) s Hw Hwf) as Hs. cbn [sstep sexec] in Hs.
    unfold look, change, view_of in Hs. rewrite Hx, Hl, decide_True in Hs by lia.
    replace (count v - Z.of_nat n) with (Z.of_nat (length l - n)) in Hs by lia. change 0 with (Z.of_nat 0) in Hs. by rewrite Hu in Hs.
  - destruct Hp as [Hp _]. by rewrite drop_0 in Hp.
  - intros y Hy. cbn [views rep set_view s_view]. by rewrite !lookup_fmap, lookup_insert_ne.
Qed.
Theorem C60_substr w s x v l z (o : nat) :
  reachable w s → s_view s !! x = Some v → elems s v = Some l → s_view s !! z = None → (o ≤ length l)%nat →
  ∃ w', sr_substr z x (Z.of_nat o) w = Ok tt w' ∧ arrs w' = arrs w ∧ is_part w' z w x l o (length l - o) ∧ reads_as w' z (drop o l).
Proof.
  intros Hr Hx Hl Hz Hn. destruct (sr_reachable_rep _ _ Hw Hr) as [-> Hwf]. pose proof (elems_usable _ _ _ _ Hwf Hx Hl) as Hv.
  destruct (elems_range _ _ _ Hv Hl) as [_ Hc]. destruct (sub_part s x v l z o (length l - o) Hwf Hx Hl) as (u & Hu & Hp); [lia|].
  exists (rep (set_view s z u)). split; [|split; [done|split; [done|]]].
  - apply done_unit. pose proof (sexec_rep (SSubstr z x (Z.of_nat o)) s Hw Hwf) as Hs. cbn [sstep sexec] in Hs.
    unfold look, make, view_of in Hs. rewrite Hx, Hl, Hz in Hs. replace (count v - Z.of_nat o) with (Z.of_nat (length l - o)) in Hs by lia.
    by rewrite Hu in Hs.
  - destruct Hp as [Hp _]. by rewrite take_ge in Hp by (rewrite drop_length; lia).
Qed.
Theorem C60_substr_n w s x v l z (o n : nat) :
  reachable w s → s_view s !! x = Some v → elems s v = Some l → s_view s !! z = None → (o + n ≤ length l)%nat →
  ∃ w', sr_substr_n z x (Z.of_nat o) (Z.of_nat n) w = Ok tt w' ∧ arrs w' = arrs w ∧ is_part w' z w x l o n.
Proof.
  intros Hr Hx Hl Hz Hn. destruct (sr_reachable_rep _ _ Hw Hr) as [-> Hwf]. pose proof (elems_usable _ _ _ _ Hwf Hx Hl) as Hv.
  destruct (sub_part s x v l z o n Hwf Hx Hl) as (u & Hu & Hp); [lia|].
  exists (rep (set_view s z u)). split; [|done].
  apply done_unit. pose proof (sexec_rep (SSubstrN z x (Z.of_nat o) (Z.of_nat n)) s Hw Hwf) as Hs. cbn [sstep sexec] in Hs.
  unfold look, make, view_of in Hs. rewrite Hx, Hl, Hz in Hs. by rewrite Hu in Hs.
Qed.

(** ** Elements *)
(** at throws exactly when the index is not below size(), otherwise it is operator[] *)
Theorem C60_at w s x v l i :
  reachable w s → s_view s !! x = Some v → elems s v = Some l → 0 ≤ i →
  if decide (i < Z.of_nat (length l)) then
    (∃ p c, sr_at x i w = Ok p w ∧ sr_index x i w = Ok p w ∧ pread p w = Ok c w ∧ l !! Z.to_nat i = Some c)
  else sr_at x i w = Exn OutOfRange w.
Proof.
  intros Hr Hx Hl Hi. destruct (sr_reachable_rep _ _ Hw Hr) as [-> Hwf]. pose proof (elems_usable _ _ _ _ Hwf Hx Hl) as Hv.
  destruct (range_reads _ _ _ _ Hx Hv Hl) as [Hs Hp]. unfold sr_at, bind. rewrite Hs. case_decide.
  - rewrite (proj2 (Z.leb_gt _ _)) by lia. destruct (lookup_lt_is_Some_2 l (Z.to_nat i)) as [u Hu]; [lia|].
    destruct (Hp _ _ Hu) as (p & Hi1 & Hi2). rewrite Z2Nat.id in Hi1 by lia. by exists p, u.
  - by rewrite (proj2 (Z.leb_le _ _)) by lia.
Qed.
(** front and back are the first and the last character *)
Theorem C60_front_back w s x v l c d :
  reachable w s → s_view s !! x = Some v → elems s v = Some l → head l = Some c → last l = Some d →
  ∃ p q, sr_front x w = Ok p w ∧ pread p w = Ok c w ∧ sr_back x w = Ok q w ∧ pread q w = Ok d w.
Proof.
  intros Hr Hx Hl Hc Hd. destruct (sr_reachable_rep _ _ Hw Hr) as [-> Hwf]. pose proof (elems_usable _ _ _ _ Hwf Hx Hl) as Hv.
  destruct (elems_range _ _ _ Hv Hl) as [_ Hn]. destruct (range_reads _ _ _ _ Hx Hv Hl) as [Hs Hp].
  pose proof (usable_count _ _ Hw Hv) as Hm. destruct l as [|e l]; [done|]. injection Hc as ->.
  destruct (Hp 0%nat c eq_refl) as (p & Hp1 & Hp2). rewrite last_lookup in Hd. destruct (Hp _ _ Hd) as (q & Hq1 & Hq2).
  exists p, q. split; [by apply noexcept_ok|]. split; [done|]. split; [|done]. apply noexcept_ok. unfold bind. rewrite Hs.
  rewrite to_size_small by (try done; cbn [length] in *; lia). rewrite <-Hq1. f_equal. cbn [length]. lia.
Qed.
(** max_size() is the largest std::ptrdiff_t *)
Theorem C79_string_ref_max_size n : n ≤ sr_max_size ↔ n ≤ 2 ^ (wbits - 1) - 1.
Proof.
  pose proof (half_pos Hw). unfold sr_max_size. rewrite to_size_small by (unfold diff_max; lia). done.
Qed.
(** size() and empty() *)
Theorem C60_size w s x v l :
  reachable w s → s_view s !! x = Some v → elems s v = Some l →
  sr_size x w = Ok (Z.of_nat (length l)) w ∧ sr_empty x w = Ok (bool_decide (l = [])) w ∧ Z.of_nat (length l) ≤ sr_max_size.
Proof.
  intros Hr Hx Hl. destruct (sr_reachable_rep _ _ Hw Hr) as [-> Hwf]. pose proof (elems_usable _ _ _ _ Hwf Hx Hl) as Hv.
  destruct (elems_range _ _ _ Hv Hl) as [_ Hn]. destruct (range_reads _ _ _ _ Hx Hv Hl) as [Hs _]. split; [done|]. split.
  - apply noexcept_ok. unfold bind. rewrite Hs. unfold ret. f_equal. by destruct l.
  - unfold sr_max_size. pose proof (usable_count _ _ Hw Hv). rewrite to_size_small by lia. lia.
Qed.

(** ** Comparison and hash *)
(** the comparisons are those of the lexicographic order of the characters as unsigned bytes *)
Theorem C60_compare w s x y v u a b :
  reachable w s → s_view s !! x = Some v → elems s v = Some a → s_view s !! y = Some u → elems s u = Some b →
  (∃ r, sr_eq x y w = Ok r w ∧ (r = true ↔ a = b)) ∧
  (∃ r, sr_ne x y w = Ok r w ∧ (r = true ↔ a ≠ b)) ∧
  (∃ r, sr_lt x y w = Ok r w ∧ (r = true ↔ StringSpec.lex_lt a b)) ∧
  (∃ r, sr_gt x y w = Ok r w ∧ (r = true ↔ StringSpec.lex_lt b a)) ∧
  (∃ r, sr_le x y w = Ok r w ∧ (r = true ↔ StringSpec.lex_lt a b ∨ a = b)) ∧
  (∃ r, sr_ge x y w = Ok r w ∧ (r = true ↔ StringSpec.lex_lt b a ∨ a = b)).
Proof.
  intros Hr Hx Ha Hy Hb. destruct (sr_reachable_rep _ _ Hw Hr) as [-> Hwf].
  pose proof (elems_usable _ _ _ _ Hwf Hx Ha) as Hv. pose proof (elems_usable _ _ _ _ Hwf Hy Hb) as Hu.
  pose proof (sr_eq_rep s x y v u a b Hw Hx Hy Hv Hu Ha Hb) as Eeq. pose proof (sr_lt_rep s x y v u a b Hw Hx Hy Hv Hu Ha Hb) as Elt.
  pose proof (sr_lt_rep s y x u v b a Hw Hy Hx Hu Hv Hb Ha) as Egt.
  assert (sr_gt x y (rep s) = Ok (match lex b a with Lt => true | _ => false end) (rep s)) as Egt' by (by apply noexcept_ok).
  rewrite (StringOrderProofs.lex_flip a b) in Egt'.
  pose proof (StringOrderProofs.lex_lt_spec a b) as L. pose proof (StringOrderProofs.lex_gt_spec a b) as G. pose proof (StringOrderProofs.lex_eq a b) as E.
  assert (sr_ne x y (rep s) = Ok (negb (match lex a b with Eq => true | _ => false end)) (rep s)) as Ene by (apply noexcept_ok; unfold bind; by rewrite Eeq).
  assert (sr_le x y (rep s) = Ok (negb (match CompOpp (lex a b) with Lt => true | _ => false end)) (rep s)) as Ele by (apply noexcept_ok; unfold bind; by rewrite Egt').
  assert (sr_ge x y (rep s) = Ok (negb (match lex a b with Lt => true | _ => false end)) (rep s)) as Ege by (apply noexcept_ok; unfold bind; by rewrite Elt).
  assert (∀ (P : Prop) (m : M world bool) r, m (rep s) = Ok r (rep s) → (r = true ↔ P) → ∃ r, m (rep s) = Ok r (rep s) ∧ (r = true ↔ P)) as Hex by (clear; eauto).
  repeat (split; [eapply Hex; [done|]|]); [..|eapply Hex; [done|]]; rewrite <-?L, <-?G, <-?E; destruct (lex a b); cbn; intuition done.
Qed.
(** equal views hash equally, and like the std::string_view of the same characters *)
Theorem C60_hash w s x y v u a b :
  reachable w s → s_view s !! x = Some v → elems s v = Some a → s_view s !! y = Some u → elems s u = Some b →
  sr_hash x w = Ok (StringOrder.hash_bytes a) w ∧ (sr_eq x y w = Ok true w → sr_hash x w = sr_hash y w).
Proof.
  intros Hr Hx Ha Hy Hb. pose proof (C60_compare w s x y v u a b Hr Hx Ha Hy Hb) as ((r & Er & Hr2) & _).
  destruct (sr_reachable_rep _ _ Hw Hr) as [-> Hwf].
  assert (∀ x v a, s_view s !! x = Some v → elems s v = Some a → sr_hash x (rep s) = Ok (StringOrder.hash_bytes a) (rep s)) as Hh.
  { clear -Hwf Hw. intros x v a Hx Ha. pose proof (sexec_rep (SHash x) s Hw Hwf) as Hs. cbn [sstep sexec] in Hs. unfold look, view_of in Hs.
    rewrite Hx, Ha, Ha in Hs. cbn [agrees] in Hs. unfold bind in Hs. destruct (sr_hash x (rep s)) as [h w|? ?|?|]; try done.
    injection Hs as -> ->. done. }
  split; [by eapply Hh|]. intros E. rewrite E in Er. injection Er as <-. rewrite (proj1 Hr2 eq_refl) in Ha. by rewrite (Hh _ _ _ Hx Ha), (Hh _ _ _ Hy Hb).
Qed.

(** ** C39: "..."_sr *)
(** the array of a literal with characters [a] is [a] and a null character *)
Theorem C39_sr_literal_without_null_partial w s x (b : nat) a :
  reachable w s → s_view s !! x = None → s_arr s !! b = Some (a ++ [NUL]) → NUL ∉ a →
  ∃ w', sr_literal x (At b 0) (Z.of_nat (length a)) w = Ok tt w' ∧ arrs w' = arrs w ∧ reads_as w' x a ∧ sr_data x w' = Ok (At b 0) w'.
Proof.
  intros Hr Hx Hb Ha. destruct (C60_from_c_string w s x b (a ++ [NUL]) 0 a [] Hr Hx Hb) as (w' & Hn & ?); [lia|by rewrite drop_0|done|].
  exists w'. split; [by apply noexcept_ok|done].
Qed.
(** the literal is cut at its first null character *)
Theorem C39_sr_literal_embedded_null_refuted w s x (b : nat) a t :
  reachable w s → s_view s !! x = None → s_arr s !! b = Some ((a ++ NUL :: t) ++ [NUL]) → NUL ∉ a →
  ∃ w', sr_literal x (At b 0) (Z.of_nat (length (a ++ NUL :: t))) w = Ok tt w' ∧ reads_as w' x a ∧
    sr_size x w' ≠ Ok (Z.of_nat (length (a ++ NUL :: t))) w'.
Proof.
  intros Hr Hx Hb Ha. destruct (C60_from_c_string w s x b _ 0 a (t ++ [NUL]) Hr Hx Hb) as (w' & Hn & _ & Hre & _); [lia| |done|].
  { by rewrite drop_0, <-app_assoc. }
  exists w'. split; [by apply noexcept_ok|]. split; [done|]. rewrite (proj1 Hre). intros [= E]. rewrite app_length in E. cbn [length] in E. lia.
Qed.
End props.

(** ** Examples *)
Section examples.
Local Instance demo : ViewCfg := {| wbits := 64 |}.
Local Instance demo_hash : StringOrder.HashFn := λ l, length l.
(** "ab\0cd", "abc\xff" *)
Definition demo_script : list sop :=
  [SNewArr 1 [x61; x62; x00; x63; x64; x00]; SNewArr 2 [x61; x62; x63; xff; x00]; SNew 1; SNewCstr 2 (At 1%nat 0); SNewCount 3 (At 1%nat 0) 5;
   SNewCstr 4 (At 2%nat 0); SNewView 5 (At 2%nat 1, 2); SCopy 6 4; SAssign 6 3; SSize 2; SSize 3; SData 4; SSubstr 7 4 1; SSubstrN 8 4 1 2;
   SRemovePrefix 4 1; SRemoveSuffix 4 2; SView 4; SAt 4 0; SAt 4 1; SFront 3; SBack 3; SEmpty 1;
   SEq 5 8; SLt 2 3; SLt 8 7; SGt 7 8; SLe 5 8; SGe 1 2; SHash 7; SEmpty 4; SNewCstr 9 (At 1%nat 3)].
Example C60_script_case :
  fst <$> srun demo_script init_state =
    Some [BUnit; BUnit; BUnit; BUnit; BUnit; BUnit; BUnit; BUnit; BUnit; BNum 2; BNum 5; BPtr (At 2%nat 0); BUnit; BUnit;
          BUnit; BUnit; BView (At 2%nat 1, 1); BPtr (At 2%nat 1); BThrew OutOfRange; BPtr (At 1%nat 0); BPtr (At 1%nat 4); BBool true;
          BBool true; BBool true; BBool true; BBool true; BBool true; BBool false; BHash 3; BBool false; BUnit]
  ∧ match srrun demo_script init_world with Finished rs _ => Some rs | _ => None end = fst <$> srun demo_script init_state.
Proof. by vm_compute. Qed.

Lemma script_reachable (f : state char → bool) os :
  f ∘ snd <$> srun os init_state = Some true → ∃ w s, reachable w s ∧ f s = true.
Proof.
  destruct (srun os init_state) as [[rs s]|] eqn:E; [|done]. intros [= Hf].
  assert (1 ≤ wbits) as Hw by done. destruct (C60_string_ref_is_view Hw os rs s E) as (w & Hr & _). exists w, s. split; [|done]. by exists os, rs.
Qed.
(** the hypotheses of the theorems: views of several characters, one with characters above 127 and
    one with a null character, arrays, and room for more views *)
Example C60_views_case :
  ∃ w s, reachable w s ∧
    bool_decide (s_view s !! 7%nat = Some (PSub 2 1 3) ∧ elems s (PSub 2 1 3) = Some [x62; x63; xff] ∧
      s_view s !! 3%nat = Some (PSub 1 0 5) ∧ elems s (PSub 1 0 5) = Some [x61; x62; x00; x63; x64] ∧ s_view s !! 20%nat = None ∧
      s_arr s !! 1%nat = Some ([x61; x62] ++ NUL :: [x63; x64; x00])) = true.
Proof. apply (script_reachable (λ s, _) demo_script). by vm_compute. Qed.
Example C39_sr_case :
  (∃ w s, reachable w s ∧ bool_decide (s_view s !! 20%nat = None ∧ s_arr s !! 2%nat = Some ([x61; x62; x63; xff] ++ [NUL])) = true) ∧
  (∃ w s, reachable w s ∧ bool_decide (s_view s !! 20%nat = None ∧ s_arr s !! 1%nat = Some (([x61; x62] ++ NUL :: [x63; x64]) ++ [NUL])) = true).
Proof. split; apply (script_reachable (λ s, _) demo_script); by vm_compute. Qed.
(** outside the contract: a null pointer, no terminator, too long a part, an array that is gone *)
Example C60_outside_case :
  match srrun [SNewCstr 1 Null] init_world with Faulted f => Some f | _ => None end = Some NullDeref ∧
  match srrun [SNewArr 1 [x61]; SNewCstr 1 (At 1%nat 0)] init_world with Faulted f => Some f | _ => None end = Some OutOfBounds ∧
  match srrun [SNewArr 1 [x61; x00]; SNewCstr 1 (At 1%nat 0); SSubstrN 2 1 1 2] init_world with Faulted f => Some f | _ => None end = Some OutOfBounds ∧
  match srrun [SNewArr 1 [x61; x00]; SNewCstr 1 (At 1%nat 0); SDelArr 1; SEq 1 1] init_world with Faulted f => Some f | _ => None end = Some UseAfterFree.
Proof. by vm_compute. Qed.
End examples.

Print Assumptions C60_string_ref_is_view.
Print Assumptions C60_string_ref_call.
Print Assumptions C60_from_c_string.
Print Assumptions C60_from_size.
Print Assumptions C60_string_view_round_trip.
Print Assumptions C60_remove_prefix.
Print Assumptions C60_remove_suffix.
Print Assumptions C60_substr.
Print Assumptions C60_substr_n.
Print Assumptions C60_at.
Print Assumptions C60_front_back.
Print Assumptions C79_string_ref_max_size.
Print Assumptions C60_size.
Print Assumptions C60_compare.
Print Assumptions C60_hash.
Print Assumptions C39_sr_literal_without_null_partial.
Print Assumptions C39_sr_literal_embedded_null_refuted.
