(** Property C59: array_ref. *)
From stdpp Require Import prelude gmap.
From Coq Require Import ZArith Lia.
From Verif Require Import Cpp IterModel IterSpec IterProofs ViewModel ArrayRefModel ArrayRefSpec ArrayRefProofs.
Local Open Scope Z_scope.

Section props.
Context `{C : ViewCfg} {A : Type} (Hw : 1 ≤ wbits).
Implicit Types (w : world A) (s : state A) (l : list A).

(** every history inside the contract runs to its end with the results of the same history on
    parts of arrays *)
Theorem C59_array_ref_is_view os rs s :
  srun os init_state = Some (rs, s) → ∃ w : world A, arun os init_world = Finished rs w ∧ shows w s.
Proof.
  intros H. destruct (arun_rep os Hw _ _ _ wf_init H) as [E _]. exists (rep s). split; [|apply rep_shows]. rewrite <-E. f_equal.
  unfold rep. cbn [s_arr s_view init_state]. by rewrite fmap_empty.
Qed.
(** one more call *)
Theorem C59_array_ref_call w s o :
  reachable w s →
  match sstep o s with
  | Bad => True
  | Done r s' => ∃ w', aexec o w = Ok r w' ∧ reachable w' s' ∧ shows w' s'
  | Throws e => aexec o w = Exn e w
  end.
Proof.
  intros Hr. pose proof (reachable_rep _ _ Hw Hr) as [-> H]. pose proof (aexec_rep o s Hw H) as Ho.
  destruct (sstep o s) as [|r s'|e] eqn:E; [done| |done]. exists (rep s'). split; [done|]. split; [|apply rep_shows].
  destruct Hr as (os & rs & Hs & Ha). exists (os ++ [o]), (rs ++ [r]).
  assert (∀ os s0 rs0, srun os s0 = Some (rs0, s) → srun (os ++ [o]) s0 = Some (rs0 ++ [r], s')) as Hsapp.
  { clear -E. induction os as [|a os IH]; intros s0 rs0 Hs; cbn [srun app] in *.
    - injection Hs as <- <-. by rewrite E.
    - destruct (sstep a s0) as [|r1 s1|e]; [done| |].
      + destruct (srun os s1) as [[rs1 s2]|] eqn:E1; [|done]. injection Hs as <- <-. by rewrite (IH _ _ E1).
      + destruct (srun os s0) as [[rs1 s2]|] eqn:E1; [|done]. injection Hs as <- <-. by rewrite (IH _ _ E1). }
  split; [by apply Hsapp|].
  assert (∀ os w0 rs0, arun os w0 = Finished rs0 (rep s) → arun (os ++ [o]) w0 = Finished (rs0 ++ [r]) (rep s')) as Haapp.
  { clear -Ho. induction os as [|a os IH]; intros w0 rs0 Hs; cbn [arun app] in *.
    - injection Hs as <- ->. by rewrite Ho.
    - destruct (aexec a w0) as [r1 w1|e w1|f|]; [| |done|done].
      + destruct (arun os w1) as [rs1 w2|f|] eqn:E1; [|done|done]. injection Hs as <- ->. by rewrite (IH _ _ E1).
      + destruct (arun os w1) as [rs1 w2|f|] eqn:E1; [|done|done]. injection Hs as <- ->. by rewrite (IH _ _ E1). }
  by apply Haapp.
Qed.

(** ** What a view shows to the program *)
(** size(), and the elements read through operator[] *)
Definition reads_as w (x : nat) l : Prop :=
  ar_size x w = Ok (Z.of_nat (length l)) w ∧
  ∀ i v, l !! i = Some v → ∃ p, ar_index x (Z.of_nat i) w = Ok p w ∧ pread p w = Ok v w.
(** view [z] is elements [o], ..., [o + n - 1] of view [x] of elements [l]: the same objects *)
Definition is_part w (z x : nat) l (o n : nat) : Prop :=
  reads_as w z (take n (drop o l)) ∧
  ∀ i, (i < n)%nat → (o + i < length l)%nat → ∃ p, ar_index z (Z.of_nat i) w = Ok p w ∧ ar_index x (Z.of_nat (o + i)) w = Ok p w.

Lemma elems_reads s x v l : wf s → s_view s !! x = Some v → elems s v = Some l → reads_as (rep s) x l ∧ Z.of_nat (length l) = count v.
Proof.
  intros H Hx Hl. assert (view_of s x = Some v) as Hv by (unfold view_of; by rewrite Hx, Hl).
  apply (view_usable _ _ _ H) in Hv as [_ Hv]. pose proof (usable_count _ _ Hw Hv) as Hc. destruct v as [|b o n].
  - injection Hl as <-. split; [|done]. split; [apply (size_rep _ _ _ Hw Hx Hv)|done].
  - destruct Hv as (? & ? & l' & Hl' & ? & ?). cbn [elems count] in *. rewrite Hl' in Hl. rewrite decide_True in Hl by done. injection Hl as <-.
    assert (Z.of_nat (length (take (Z.to_nat n) (drop (Z.to_nat o) l'))) = n) as En by (rewrite take_length, drop_length; lia).
    split; [|done]. split.
    + rewrite En. apply (size_rep _ _ (PSub b o n) Hw Hx). split; [done|]. split; [done|]. by exists l'.
    + intros i u Hu. pose proof (lookup_lt_Some _ _ _ Hu). rewrite lookup_take in Hu by lia. rewrite lookup_drop in Hu.
      exists (At b (o + Z.of_nat i)). split.
      * eapply index_rep; [exact Hx| |cbn [place]; by rewrite decide_True by lia]. split; [done|]. split; [done|]. by exists l'.
      * cbn [pread load arrays arrs rep]. rewrite Hl'. rewrite (proj2 (Z.leb_le _ _)) by lia.
        replace (Z.to_nat (o + Z.of_nat i)) with (Z.to_nat o + i)%nat by lia. by rewrite Hu.
Qed.
Lemma sub_part s x v l z (o n : nat) : wf s → s_view s !! x = Some v → elems s v = Some l → (o + n ≤ length l)%nat → z ≠ x →
  ∃ u, sub v (Z.of_nat o) (Z.of_nat n) = Some u ∧ wf (set_view s z u) ∧ is_part (rep (set_view s z u)) z x l o n.
Proof.
  intros H Hx Hl Hn Hz. destruct (elems_reads _ _ _ _ H Hx Hl) as [Hr Hc]. assert (view_of s x = Some v) as Hv by (unfold view_of; by rewrite Hx, Hl).
  apply (view_usable _ _ _ H) in Hv as [_ Hv]. unfold sub. rewrite decide_True by lia. eexists. split; [reflexivity|].
  set (u := match v with PNone => PNone | PSub b o' _ => PSub b (o' + Z.of_nat o) (Z.of_nat n) end).
  assert (Hwf : wf (set_view s z u)).
  { destruct H as [H1 H2]. split; [done|]. intros y t. cbn [s_view set_view]. intros [[<- <-]|[_ ?]]%lookup_insert_Some; [|by eapply H2].
    destruct v as [|b o' n']; [done|]. destruct Hv as (? & ? & _). cbn. lia. }
  split; [done|].
  assert (Hu : s_view (set_view s z u) !! z = Some u) by (cbn [s_view set_view]; by rewrite lookup_insert).
  assert (Hx' : s_view (set_view s z u) !! x = Some v) by (cbn [s_view set_view]; by rewrite lookup_insert_ne).
  assert (Hlu : elems (set_view s z u) u = Some (take n (drop o l))).
  { destruct v as [|b o' n']; cbn [u elems set_view s_arr] in *.
    - injection Hl as <-. destruct o, n; done.
    - destruct (s_arr s !! b) as [l'|]; [|done]. case_decide; [|done]. injection Hl as <-. cbn [count] in Hc. destruct Hv as (? & ? & _).
      rewrite decide_True by lia. f_equal. rewrite skipn_firstn_comm, firstn_firstn, drop_drop, Nat2Z.id. f_equal; [lia|]. f_equal. lia. }
  split; [by apply (elems_reads _ _ _ _ Hwf Hu)|].
  intros i Hi Hi2. destruct v as [|b o' n']; [injection Hl as <-; cbn in Hi2; lia|]. cbn [count] in Hc.
  exists (At b (o' + Z.of_nat (o + i))). split.
  - eapply index_rep; [exact Hu| |].
    + destruct Hv as (? & ? & l' & Hl' & ? & ?). split; [lia|]. split; [lia|]. exists l'. split; [done|]. split; [lia|done].
    + cbn [place u]. rewrite decide_True by lia. do 2 f_equal. lia.
  - eapply index_rep; [exact Hx'|done|]. cbn [place]. by rewrite decide_True by lia.
Qed.

(** ** The sub-views: exactly the first, last, ... elements, the same objects *)
Theorem C59_first w s x v l z (n : nat) :
  reachable w s → s_view s !! x = Some v → elems s v = Some l → s_view s !! z = None → (n ≤ length l)%nat →
  ∃ w', ar_first z x (Z.of_nat n) w = Ok tt w' ∧ arrs w' = arrs w ∧ is_part w' z x l 0 n.
Proof.
  intros Hr Hx Hl Hz Hn. destruct (reachable_rep _ _ Hw Hr) as [-> H].
  destruct (sub_part s x v l z 0 n H Hx Hl) as (u & Hu & _ & Hp); [lia|congruence|]. exists (rep (set_view s z u)). split; [|done].
  assert (view_of s x = Some v) as Hv by (unfold view_of; by rewrite Hx, Hl).
  pose proof (aexec_rep (AFirst z x (Z.of_nat n)) s Hw H) as Ho. cbn [sstep aexec] in Ho. unfold look, make in Ho. rewrite Hv, Hz in Ho.
  change (Z.of_nat 0) with 0 in Hu. rewrite Hu in Ho. unfold bind in Ho. destruct (ar_first z x (Z.of_nat n) (rep s)) as [[] w'|? ?|?|]; try done.
  by injection Ho as ->.
Qed.
Theorem C59_last w s x v l z (n : nat) :
  reachable w s → s_view s !! x = Some v → elems s v = Some l → s_view s !! z = None → (n ≤ length l)%nat →
  ∃ w', ar_last z x (Z.of_nat n) w = Ok tt w' ∧ arrs w' = arrs w ∧ is_part w' z x l (length l - n) n.
Proof.
  intros Hr Hx Hl Hz Hn. destruct (reachable_rep _ _ Hw Hr) as [-> H].
  destruct (sub_part s x v l z (length l - n) n H Hx Hl) as (u & Hu & _ & Hp); [lia|congruence|]. exists (rep (set_view s z u)). split; [|done].
  destruct (elems_reads _ _ _ _ H Hx Hl) as [_ Hc].
  assert (view_of s x = Some v) as Hv by (unfold view_of; by rewrite Hx, Hl).
  pose proof (aexec_rep (ALast z x (Z.of_nat n)) s Hw H) as Ho. cbn [sstep aexec] in Ho. unfold look, make in Ho. rewrite Hv, Hz in Ho.
  replace (count v - Z.of_nat n) with (Z.of_nat (length l - n)) in Ho by lia. rewrite Hu in Ho. unfold bind in Ho.
  destruct (ar_last z x (Z.of_nat n) (rep s)) as [[] w'|? ?|?|]; try done. by injection Ho as ->.
Qed.
Theorem C59_subrange w s x v l z (o : nat) :
  reachable w s → s_view s !! x = Some v → elems s v = Some l → s_view s !! z = None → (o ≤ length l)%nat →
  ∃ w', ar_subrange z x (Z.of_nat o) w = Ok tt w' ∧ arrs w' = arrs w ∧ is_part w' z x l o (length l - o).
Proof.
  intros Hr Hx Hl Hz Hn. destruct (reachable_rep _ _ Hw Hr) as [-> H].
  destruct (sub_part s x v l z o (length l - o) H Hx Hl) as (u & Hu & _ & Hp); [lia|congruence|]. exists (rep (set_view s z u)). split; [|done].
  destruct (elems_reads _ _ _ _ H Hx Hl) as [_ Hc].
  assert (view_of s x = Some v) as Hv by (unfold view_of; by rewrite Hx, Hl).
  pose proof (aexec_rep (ASub z x (Z.of_nat o)) s Hw H) as Ho. cbn [sstep aexec] in Ho. unfold look, make in Ho. rewrite Hv, Hz in Ho.
  replace (count v - Z.of_nat o) with (Z.of_nat (length l - o)) in Ho by lia. rewrite Hu in Ho. unfold bind in Ho.
  destruct (ar_subrange z x (Z.of_nat o) (rep s)) as [[] w'|? ?|?|]; try done. by injection Ho as ->.
Qed.
Theorem C59_subrange_n w s x v l z (o n : nat) :
  reachable w s → s_view s !! x = Some v → elems s v = Some l → s_view s !! z = None → (o + n ≤ length l)%nat →
  ∃ w', ar_subrange_n z x (Z.of_nat o) (Z.of_nat n) w = Ok tt w' ∧ arrs w' = arrs w ∧ is_part w' z x l o n.
Proof.
  intros Hr Hx Hl Hz Hn. destruct (reachable_rep _ _ Hw Hr) as [-> H].
  destruct (sub_part s x v l z o n H Hx Hl) as (u & Hu & _ & Hp); [lia|congruence|]. exists (rep (set_view s z u)). split; [|done].
  assert (view_of s x = Some v) as Hv by (unfold view_of; by rewrite Hx, Hl).
  pose proof (aexec_rep (ASubN z x (Z.of_nat o) (Z.of_nat n)) s Hw H) as Ho. cbn [sstep aexec] in Ho. unfold look, make in Ho. rewrite Hv, Hz in Ho.
  rewrite Hu in Ho. unfold bind in Ho. destruct (ar_subrange_n z x (Z.of_nat o) (Z.of_nat n) (rep s)) as [[] w'|? ?|?|]; try done.
  by injection Ho as ->.
Qed.
(** a part of a part is the part with the offsets added: the results are the same pointers *)
Theorem C59_compose w s x v l y z z' (o n p m : nat) :
  reachable w s → s_view s !! x = Some v → elems s v = Some l → s_view s !! y = None → s_view s !! z = None → s_view s !! z' = None →
  y ≠ z → y ≠ z' → (o + n ≤ length l)%nat → (p + m ≤ n)%nat →
  ∃ w1 w2 w3, ar_subrange_n y x (Z.of_nat o) (Z.of_nat n) w = Ok tt w1 ∧ ar_subrange_n z y (Z.of_nat p) (Z.of_nat m) w1 = Ok tt w2 ∧
    ar_subrange_n z' x (Z.of_nat (o + p)) (Z.of_nat m) w = Ok tt w3 ∧ views w2 !! z = views w3 !! z'.
Proof.
  intros Hr Hx Hl Hy Hz Hz' Hyz Hyz' Hn Hm. destruct (reachable_rep _ _ Hw Hr) as [-> H].
  assert (∀ s t a u (o n : nat), wf s → s_view s !! a = Some u → is_Some (elems s u) → s_view s !! t = None → ∀ u',
    sub u (Z.of_nat o) (Z.of_nat n) = Some u' → ar_subrange_n t a (Z.of_nat o) (Z.of_nat n) (rep s) = Ok tt (rep (set_view s t u'))) as Hsub.
  { clear -Hw. intros s t a u o n H Ha [k Hk] Ht u' Hu. pose proof (aexec_rep (ASubN t a (Z.of_nat o) (Z.of_nat n)) s Hw H) as Ho.
    cbn [sstep aexec] in Ho. unfold look, make, view_of in Ho. rewrite Ha, Hk, Ht, Hu in Ho. unfold bind in Ho.
    destruct (ar_subrange_n t a (Z.of_nat o) (Z.of_nat n) (rep s)) as [[] w'|? ?|?|]; try done. by injection Ho as ->. }
  destruct (sub_part s x v l y o n H Hx Hl) as (u & Hu & Hwf & _); [lia|congruence|].
  destruct (sub_part s x v l z' (o + p) m H Hx Hl) as (u3 & Hu3 & _); [lia|congruence|].
  assert (Hyu : s_view (set_view s y u) !! y = Some u) by (cbn [s_view set_view]; by rewrite lookup_insert).
  destruct (elems_reads _ _ _ _ H Hx Hl) as [_ Hc].
  assert (is_Some (elems (set_view s y u) u)) as Hlu.
  { unfold sub in Hu. case_decide; [|done]. injection Hu as <-. destruct v as [|b o' n']; [done|]. cbn [elems set_view s_arr] in *.
    destruct (s_arr s !! b) as [l'|]; [|done]. case_decide; [|done]. injection Hl as <-. rewrite decide_True by (cbn [count] in *; lia). done. }
  assert (sub u (Z.of_nat p) (Z.of_nat m) = Some u3) as Hu2.
  { unfold sub in *. rewrite decide_True in Hu by lia. rewrite decide_True in Hu3 by lia. injection Hu as <-. injection Hu3 as <-.
    destruct v as [|b o' n']; cbn [count] in *.
    - rewrite decide_True by lia. done.
    - rewrite decide_True by lia. do 2 f_equal. lia. }
  exists (rep (set_view s y u)), (rep (set_view (set_view s y u) z u3)), (rep (set_view s z' u3)).
  split; [by eapply Hsub; [done|exact Hx|rewrite Hl|..]|]. split; [eapply Hsub; [done|exact Hyu|done| |done]|].
  - cbn [s_view set_view]. by rewrite lookup_insert_ne.
  - split; [by eapply Hsub; [done|exact Hx|rewrite Hl|..]|]. cbn [views rep set_view s_view]. by rewrite !lookup_fmap, !lookup_insert.
Qed.
(** a write through a part is seen at the same element of the whole, and only there *)
Theorem C59_shares_storage w s x v l z (o n i : nat) a :
  reachable w s → s_view s !! x = Some v → elems s v = Some l → s_view s !! z = None → (o + n ≤ length l)%nat → (i < n)%nat →
  ∃ w' p w'', ar_subrange_n z x (Z.of_nat o) (Z.of_nat n) w = Ok tt w' ∧ ar_index z (Z.of_nat i) w' = Ok p w' ∧
    pwrite p a w' = Ok tt w'' ∧ reads_as w'' x (<[(o + i)%nat:=a]> l) ∧ reads_as w'' z (<[i:=a]> (take n (drop o l))).
Proof.
  intros Hr Hx Hl Hz Hn Hi. destruct (reachable_rep _ _ Hw Hr) as [-> H].
  destruct (sub_part s x v l z o n H Hx Hl) as (u & Hu & Hwf & _ & Hp); [lia|congruence|]. exists (rep (set_view s z u)).
  assert (ar_subrange_n z x (Z.of_nat o) (Z.of_nat n) (rep s) = Ok tt (rep (set_view s z u))) as ->.
  { pose proof (aexec_rep (ASubN z x (Z.of_nat o) (Z.of_nat n)) s Hw H) as Ho. cbn [sstep aexec] in Ho. unfold look, make, view_of in Ho.
    rewrite Hx, Hl, Hz, Hu in Ho. unfold bind in Ho. destruct (ar_subrange_n z x (Z.of_nat o) (Z.of_nat n) (rep s)) as [[] w'|? ?|?|]; try done.
    by injection Ho as ->. }
  destruct v as [|b o' n']; [injection Hl as <-; cbn in Hn; lia|].
  assert (view_of s x = Some (PSub b o' n')) as Hv by (unfold view_of; by rewrite Hx, Hl).
  apply (view_usable _ _ _ H) in Hv as [_ (? & ? & l' & Hl' & ? & Hmax)]. cbn [elems] in Hl. rewrite Hl', decide_True in Hl by done. injection Hl as <-.
  unfold sub in Hu. case_decide as Hd; [|done]. injection Hu as <-. cbn [count] in Hd.
  set (s1 := set_view s z (PSub b (o' + Z.of_nat o) (Z.of_nat n))) in *.
  exists (At b (o' + Z.of_nat o + Z.of_nat i)). set (l'' := <[Z.to_nat (o' + Z.of_nat o + Z.of_nat i):=a]> l').
  set (s2 := State (<[b:=l'']> (s_arr s1)) (s_view s1)). exists (rep s2). split; [done|].
  assert (Hz1 : s_view s1 !! z = Some (PSub b (o' + Z.of_nat o) (Z.of_nat n))) by (cbn [s1 s_view set_view]; by rewrite lookup_insert).
  assert (Hx1 : s_view s1 !! x = Some (PSub b o' n')) by (cbn [s1 s_view set_view]; rewrite lookup_insert_ne by congruence; done).
  assert (Hwf2 : wf s2).
  { destruct Hwf as [Hf1 Hf2]. split; [|done]. intros b' k. cbn [s2 s_arr]. intros [[<- <-]|[_ ?]]%lookup_insert_Some; [|by eapply Hf1].
    unfold l''. rewrite insert_length. done. }
  split; [|split; [|split]].
  - eapply index_rep; [exact Hz1| |].
    + split; [lia|]. split; [lia|]. exists l'. split; [done|]. lia.
    + cbn [place]. by rewrite decide_True by lia.
  - cbn [pwrite store arrays arrs rep s1 set_view s_arr]. rewrite Hl'.
    rewrite (proj2 (Z.leb_le _ _)), (proj2 (Z.ltb_lt _ _)) by lia. done.
  - apply (elems_reads s2 x (PSub b o' n') _ Hwf2 Hx1). cbn [elems s2 s_arr]. rewrite lookup_insert. unfold l''. rewrite insert_length.
    rewrite decide_True by lia. f_equal. rewrite take_length, drop_length in Hn.
    rewrite drop_insert_le by lia. rewrite insert_take_drop, (insert_take_drop (take _ _)) by (rewrite ?take_length, ?drop_length; lia).
    rewrite take_app_ge by (rewrite take_length, drop_length; lia). rewrite take_length, drop_length.
    replace (Z.to_nat (o' + Z.of_nat o + Z.of_nat i) - Z.to_nat o')%nat with (o + i)%nat by lia.
    replace (Z.to_nat n' - (o + i) `min` (length l' - Z.to_nat o'))%nat with (S (Z.to_nat n' - (o + i) - 1)) by lia. cbn [firstn].
    rewrite take_take. f_equal; [f_equal; lia|]. f_equal. rewrite skipn_firstn_comm. f_equal. lia.
  - apply (elems_reads s2 z (PSub b (o' + Z.of_nat o) (Z.of_nat n)) _ Hwf2 Hz1). cbn [elems s2 s_arr]. rewrite lookup_insert. unfold l''.
    rewrite insert_length. rewrite decide_True by lia. f_equal. rewrite take_length, drop_length in Hn.
    rewrite drop_insert_le by lia. rewrite skipn_firstn_comm, firstn_firstn, drop_drop.
    replace (n `min` (Z.to_nat n' - o))%nat with n by lia. replace (Z.to_nat (Z.of_nat n)) with n by lia.
    replace (Z.to_nat (o' + Z.of_nat o)) with (Z.to_nat o' + o)%nat by lia.
    replace (Z.to_nat (o' + Z.of_nat o + Z.of_nat i) - (Z.to_nat o' + o))%nat with i by lia.
    by rewrite take_insert_lt.
Qed.
(** at throws exactly when the index is not below size(), otherwise it is operator[] *)
Theorem C59_at w s x v l i :
  reachable w s → s_view s !! x = Some v → elems s v = Some l → 0 ≤ i →
  if decide (i < Z.of_nat (length l)) then
    (∃ p u, ar_at x i w = Ok p w ∧ ar_index x i w = Ok p w ∧ pread p w = Ok u w ∧ l !! Z.to_nat i = Some u)
  else ar_at x i w = Exn OutOfRange w.
Proof.
  intros Hr Hx Hl Hi. destruct (reachable_rep _ _ Hw Hr) as [-> H]. destruct (elems_reads _ _ _ _ H Hx Hl) as [[Hs Hp] _].
  unfold ar_at, bind. rewrite Hs. case_decide.
  - rewrite (proj2 (Z.leb_gt _ _)) by lia. destruct (lookup_lt_is_Some_2 l (Z.to_nat i)) as [u Hu]; [lia|].
    destruct (Hp _ _ Hu) as (p & Hi1 & Hi2). rewrite Z2Nat.id in Hi1 by lia. by exists p, u.
  - by rewrite (proj2 (Z.leb_le _ _)) by lia.
Qed.
(** front and back are the first and the last element *)
Theorem C59_front_back w s x v l a b :
  reachable w s → s_view s !! x = Some v → elems s v = Some l → head l = Some a → last l = Some b →
  ∃ p q, ar_front x w = Ok p w ∧ pread p w = Ok a w ∧ ar_back x w = Ok q w ∧ pread q w = Ok b w.
Proof.
  intros Hr Hx Hl Ha Hb. destruct (reachable_rep _ _ Hw Hr) as [-> H]. destruct (elems_reads _ _ _ _ H Hx Hl) as [[Hs Hp] Hc].
  assert (view_of s x = Some v) as Hv by (unfold view_of; by rewrite Hx, Hl). apply (view_usable _ _ _ H) in Hv as [_ Hv].
  pose proof (usable_count _ _ Hw Hv) as Hm. destruct l as [|c l]; [done|]. injection Ha as ->.
  destruct (Hp 0%nat a eq_refl) as (p & Hp1 & Hp2). rewrite last_lookup in Hb. destruct (Hp _ _ Hb) as (q & Hq1 & Hq2).
  exists p, q. split; [by apply noexcept_ok|]. split; [done|]. split; [|done]. apply noexcept_ok. unfold bind. rewrite Hs.
  rewrite to_size_small by (try done; cbn [length] in *; lia). rewrite <-Hq1. f_equal. cbn [length]. lia.
Qed.
(** a view of a whole array reads as the array *)
Theorem C59_whole_array w s b l x :
  reachable w s → s_arr s !! b = Some l → s_view s !! x = None →
  ∃ w', ar_new_range x (RArr b) w = Ok tt w' ∧ arrs w' = arrs w ∧ reads_as w' x l ∧ ar_data x w' = Ok (At b 0) w'.
Proof.
  intros Hr Hb Hx. destruct (reachable_rep _ _ Hw Hr) as [-> H]. pose proof (aexec_rep (ANewRange x (RArr b)) s Hw H) as Ho.
  cbn [sstep aexec] in Ho. unfold make in Ho. rewrite Hb, Hx in Ho. set (s' := set_view _ _ _) in Ho. exists (rep s').
  split; [unfold bind in Ho; destruct (ar_new_range x (RArr b) (rep s)) as [[] w'|? ?|?|]; try done; by injection Ho as ->|]. split; [done|].
  assert (wf s') as H'.
  { eapply (sstep_wf (ANewRange x (RArr b)) s BUnit _ H). cbn [sstep]. unfold make. by rewrite Hb, Hx. }
  assert (s_view s' !! x = Some (PSub b 0 (Z.of_nat (length l)))) as Hx' by (cbn [s' s_view set_view]; by rewrite lookup_insert).
  split; [|by apply (data_rep _ _ _ Hx')]. apply (elems_reads s' x _ _ H' Hx'). cbn [elems s' set_view s_arr]. rewrite Hb, decide_True by lia.
  by rewrite Nat2Z.id, drop_0, take_ge.
Qed.
End props.

(** ** Examples *)
Section examples.
Local Instance demo : ViewCfg := {| wbits := 64 |}.
Definition demo_script : list (aop nat) :=
  [ANewArr 1 [10; 11; 12; 13; 14]%nat; ANewRange 1 (RArr 1); ANewCount 2 (At 1%nat 1) 3; ANewPtrs 3 (At 1%nat 2) (At 1%nat 5); ANew 4;
   ANewRange 5 REmpty; ANewRange 6 (RView 2); ACopy 7 1; AAssign 7 2; AFirst 8 2 2; ALast 9 2 2; ASub 10 2 1; ASubN 11 1 1 2;
   AIndex 8 1; AWrite (At 1%nat 2) 77%nat; AAt 2 1; AAt 2 3; ASize 11; AFront 9; ABack 9; AEmpty 4; AEmpty 10; AFirst 12 4 0].
Example C59_script_case :
  fst <$> srun demo_script init_state =
    Some ([BUnit; BUnit; BUnit; BUnit; BUnit; BUnit; BUnit; BUnit; BUnit; BUnit; BUnit; BUnit; BUnit;
           BPtr (At 1%nat 2); BUnit; BPtr (At 1%nat 2); BThrew OutOfRange; BNum 2; BPtr (At 1%nat 2); BPtr (At 1%nat 3); BBool true; BBool false; BUnit])
  ∧ match arun demo_script init_world with Finished rs _ => Some rs | _ => None end = fst <$> srun demo_script init_state.
Proof. by vm_compute. Qed.

Lemma script_reachable (f : state nat → bool) os :
  f ∘ snd <$> srun os init_state = Some true → ∃ w s, reachable w s ∧ f s = true.
Proof.
  destruct (srun os init_state) as [[rs s]|] eqn:E; [|done]. intros [= Hf].
  assert (1 ≤ wbits) as Hw by done. destruct (C59_array_ref_is_view Hw os rs s E) as (w & Hr & _). exists w, s. split; [|done]. by exists os, rs.
Qed.
(** the hypotheses of the theorems about parts: a view of three elements of five, and room for more views *)
Example C59_parts_case :
  ∃ w s, reachable w s ∧
    bool_decide (s_view s !! 2%nat = Some (PSub 1 1 3) ∧ elems s (PSub 1 1 3) = Some [11; 77; 13]%nat ∧ s_view s !! 20%nat = None ∧
      s_view s !! 21%nat = None ∧ s_view s !! 22%nat = None ∧ s_arr s !! 1%nat = Some [10; 11; 77; 13; 14]%nat) = true.
Proof. apply (script_reachable (λ s, _) demo_script). by vm_compute. Qed.
(** outside the contract: more elements than there are, an element past the end of the array, an array that is gone *)
Example C59_outside_case :
  match arun [ANewArr 1 [10; 11]%nat; ANewRange 1 (RArr 1); AFirst 2 1 3] init_world with Faulted f => Some f | _ => None end = Some OutOfBounds ∧
  match arun [ANewArr 1 [10; 11]%nat; ANewRange 1 (RArr 1); AIndex 1 2] init_world with Faulted f => Some f | _ => None end = Some OutOfBounds ∧
  match arun [ANewArr 1 [10; 11]%nat; ANewRange 1 (RArr 1); ALast 2 1 3] init_world with Faulted f => Some f | _ => None end = Some OutOfBounds ∧
  match arun [ANewArr 1 [10; 11]%nat; ANewRange 1 (RArr 1); ADelArr 1; ASize 1] init_world with Faulted f => Some f | _ => None end = Some UseAfterFree ∧
  match arun [ANew (A:=nat) 1; AFront 1] init_world with Faulted f => Some f | _ => None end = Some NullDeref.
Proof. by vm_compute. Qed.
End examples.

Print Assumptions C59_array_ref_is_view.
Print Assumptions C59_array_ref_call.
Print Assumptions C59_first.
Print Assumptions C59_last.
Print Assumptions C59_subrange.
Print Assumptions C59_subrange_n.
Print Assumptions C59_compose.
Print Assumptions C59_shares_storage.
Print Assumptions C59_at.
Print Assumptions C59_front_back.
Print Assumptions C59_whole_array.
