(** Every call on array_refs does what it does on parts of arrays. *)
From stdpp Require Import prelude gmap.
From Coq Require Import ZArith Lia.
From Verif Require Import Cpp IterModel IterSpec IterProofs ViewModel ArrayRefModel ArrayRefSpec.
Local Open Scope Z_scope.

Section ints.
Context `{C : ViewCfg} (Hw : 1 ≤ wbits).
Lemma wbits_half : 2 ^ wbits = 2 * 2 ^ (wbits - 1).
Proof. rewrite <-Z.pow_succ_r by lia. f_equal. lia. Qed.
Lemma half_pos : 0 < 2 ^ (wbits - 1).
Proof. apply Z.pow_pos_nonneg; lia. Qed.
Lemma to_size_small z : 0 ≤ z ≤ diff_max → to_size z = z.
Proof. intros ?. unfold to_size, diff_max in *. apply Z.mod_small. rewrite wbits_half. pose proof half_pos. lia. Qed.
Lemma to_diff_small z : 0 ≤ z ≤ diff_max → to_diff z = z.
Proof. intros ?. unfold to_diff, diff_max in *. by rewrite (proj2 (Z.ltb_lt _ _)) by lia. Qed.
End ints.

Section proofs.
Context `{C : ViewCfg} {A : Type}.
Notation state := (state A).
Notation outcome := (outcome A).
Implicit Types (s : state) (v : part).

Definition span (v : part) : view := match v with PNone => (Null, Null) | PSub b o n => (At b o, At b (o + n)) end.
Definition rep (s : state) : world A := World (s_arr s) (span <$> s_view s).
(** arrays and views have possible sizes *)
Definition wf (s : state) : Prop :=
  (∀ b l, s_arr s !! b = Some l → Z.of_nat (length l) ≤ diff_max) ∧
  (∀ x v, s_view s !! x = Some v → match v with PNone => True | PSub _ o n => 0 ≤ o ∧ 0 ≤ n end).

Lemma rep_shows s : shows (rep s) s.
Proof.
  split; [done|]. intros x. cbn [views rep]. rewrite lookup_fmap. destruct (s_view s !! x) as [[|b o n]|]; done.
Qed.
Lemma put_rep s x v : put_view x (span v) (rep s) = Ok tt (rep (set_view s x v)).
Proof. unfold put_view, rep, set_views, set_view. cbn [views s_arr s_view arrs]. by rewrite fmap_insert. Qed.
Lemma get_rep s x v : s_view s !! x = Some v → get_view x (rep s) = Ok (span v) (rep s).
Proof. intros E. unfold get_view. cbn [views rep]. by rewrite lookup_fmap, E. Qed.
Lemma view_of_inv s x v : view_of s x = Some v → s_view s !! x = Some v ∧ is_Some (elems s v).
Proof. unfold view_of. destruct (s_view s !! x) as [u|]; [|done]. destruct (elems s u) eqn:E; [|done]. intros [= ->]. by rewrite E. Qed.

(** the facts about a usable view *)
Definition usable (s : state) (v : part) : Prop :=
  match v with
  | PNone => True
  | PSub b o n => 0 ≤ o ∧ 0 ≤ n ∧ ∃ l, s_arr s !! b = Some l ∧ o + n ≤ Z.of_nat (length l) ∧ Z.of_nat (length l) ≤ diff_max
  end.
Lemma view_usable s x v : wf s → view_of s x = Some v → s_view s !! x = Some v ∧ usable s v.
Proof.
  intros [H1 H2] [Hx [l Hl]]%view_of_inv. split; [done|]. specialize (H2 _ _ Hx). destruct v as [|b o n]; [done|]. cbn [usable elems] in *.
  destruct (s_arr s !! b) as [l'|] eqn:E; [|done]. case_decide; [|done]. destruct H2. split; [done|]. split; [done|].
  exists l'. split; [done|]. split; [done|]. by eapply H1.
Qed.
Lemma usable_count s v : 1 ≤ wbits → usable s v → 0 ≤ count v ≤ diff_max.
Proof.
  intros Hw. destruct v as [|b o n]; cbn [usable count].
  - unfold diff_max. pose proof (half_pos Hw). lia.
  - intros (? & ? & l & _ & ? & ?). lia.
Qed.
Lemma usable_padd s v i : usable s v → 0 ≤ i ≤ count v → padd (start v) i (rep s) = Ok (pos (start v) i) (rep s).
Proof.
  destruct v as [|b o n]; cbn [usable count start padd pos].
  - intros _ ?. by replace i with 0 by lia.
  - intros (? & ? & l & Hl & ? & ?) ?. cbn [extent arrays arrs rep]. rewrite Hl. cbn [fmap option_fmap option_map].
    by rewrite (proj2 (Z.leb_le _ _)), (proj2 (Z.leb_le _ _)) by lia.
Qed.
Lemma span_pos v : span v = (start v, pos (start v) (count v)).
Proof. by destruct v. Qed.

Lemma elems_range s v (l : list A) : usable s v → elems s v = Some l → range_at (rep s) (start v) l ∧ Z.of_nat (length l) = count v.
Proof.
  destruct v as [|b o n]; cbn [usable elems start count].
  - intros _ [= <-]. done.
  - intros (? & ? & l' & Hl' & ? & ?) Hl. rewrite Hl', decide_True in Hl by done. injection Hl as <-.
    assert (Z.of_nat (length (take (Z.to_nat n) (drop (Z.to_nat o) l'))) = n) as En by (rewrite take_length, drop_length; lia).
    split; [|done]. cbn [range_at]. split; [done|]. cbn [extent load arrays arrs rep]. rewrite Hl', En. split; [by exists (Z.of_nat (length l'))|].
    intros i u Hu. pose proof (lookup_lt_Some _ _ _ Hu). rewrite lookup_take in Hu by lia. rewrite lookup_drop in Hu.
    rewrite (proj2 (Z.leb_le _ _)) by lia. replace (Z.to_nat (o + Z.of_nat i)) with (Z.to_nat o + i)%nat by lia. by rewrite Hu.
Qed.
Lemma data_rep s x v : s_view s !! x = Some v → ar_data x (rep s) = Ok (start v) (rep s).
Proof. intros Hx. apply noexcept_ok. unfold bind. rewrite (get_rep _ _ _ Hx). by destruct v. Qed.
Lemma size_rep s x v : 1 ≤ wbits → s_view s !! x = Some v → usable s v → ar_size x (rep s) = Ok (count v) (rep s).
Proof.
  intros Hw Hx Hv. apply noexcept_ok. unfold bind. rewrite (get_rep _ _ _ Hx). pose proof (usable_count _ _ Hw Hv).
  destruct v as [|b o n]; cbn [span fst snd pdiff count] in *.
  - unfold ret. f_equal.
  - destruct Hv as (? & ? & l & Hl & ?). rewrite decide_True by done. cbn [extent arrays arrs rep]. rewrite Hl. cbn. unfold ret. f_equal.
    rewrite to_size_small by lia. lia.
Qed.
Lemma index_rep s x v i p : s_view s !! x = Some v → usable s v → place v i = Some p → ar_index x i (rep s) = Ok p (rep s).
Proof.
  intros Hx Hv Hp. apply noexcept_ok. unfold bind. rewrite (data_rep _ _ _ Hx).
  destruct v as [|b o n]; [done|]. cbn [place] in Hp. case_decide as Hi; [|done]. injection Hp as <-.
  rewrite (usable_padd _ _ _ Hv) by (cbn [count]; lia). cbn [start pos pderef].
  destruct Hv as (? & ? & l & Hl & ?). cbn [extent arrays arrs rep]. rewrite Hl. cbn [fmap option_fmap option_map].
  by rewrite (proj2 (Z.leb_le _ _)), (proj2 (Z.ltb_lt _ _)) by lia.
Qed.
Lemma end_rep s x v : 1 ≤ wbits → s_view s !! x = Some v → usable s v → ar_end x (rep s) = Ok (pos (start v) (count v)) (rep s).
Proof.
  intros Hw Hx Hv. apply noexcept_ok. unfold bind. unfold ar_begin. rewrite (noexcept_ok _ _ _ _ (data_rep _ _ _ Hx)).
  rewrite (size_rep _ _ _ Hw Hx Hv). pose proof (usable_count _ _ Hw Hv). rewrite to_diff_small by done.
  do 2 apply noexcept_ok. apply usable_padd; [done|lia].
Qed.
(** array_ref{start of v + o, n} *)
Lemma count_rep s x v o n u : usable s v → sub v o n = Some u →
  ar_new_count x (pos (start v) o) n (rep s) = Ok tt (rep (set_view s x u)).
Proof.
  intros Hv Hu. unfold sub in Hu. case_decide as Hd; [|done]. injection Hu as <-. apply noexcept_ok. unfold bind.
  assert (padd (pos (start v) o) n (rep s) = Ok (pos (start v) (o + n)) (rep s)) as ->.
  { destruct v as [|b o' n']; cbn [start pos padd count] in *.
    - by replace n with 0 by lia.
    - destruct Hv as (? & ? & l & Hl & ?). cbn [extent arrays arrs rep]. rewrite Hl. cbn [fmap option_fmap option_map].
      rewrite (proj2 (Z.leb_le _ _)), (proj2 (Z.leb_le _ _)) by lia. cbn. do 2 f_equal. lia. }
  apply noexcept_ok. rewrite <-put_rep. f_equal. destruct v as [|b o' n']; cbn [span start pos]; [done|]. do 2 f_equal. lia.
Qed.

Lemma from_to_rep s x p n v : from_to s p n = Some v → ar_new_count x p n (rep s) = Ok tt (rep (set_view s x v)).
Proof.
  intros H. apply noexcept_ok. unfold bind. destruct p as [|b o]; cbn [from_to padd] in *.
  - case_decide; [|done]. subst. injection H as <-. exact (noexcept_ok _ _ _ _ (put_rep s x PNone)).
  - destruct (s_arr s !! b) as [l|] eqn:Hl; [|done]. case_decide; [|done]. injection H as <-.
    cbn [extent arrays arrs rep]. rewrite Hl. cbn [fmap option_fmap option_map].
    rewrite (proj2 (Z.leb_le _ _)), (proj2 (Z.leb_le _ _)) by lia. apply noexcept_ok. apply (put_rep s x (PSub b o n)).
Qed.

Lemma make_rep s x (v : option part) (m : M (world A) unit) :
  (∀ u, v = Some u → m (rep s) = Ok tt (rep (set_view s x u))) →
  match make s x v with
  | Bad => True
  | Done r s' => bind m (λ _, ret (BUnit (A:=A))) (rep s) = Ok r (rep s')
  | Throws e => bind m (λ _, ret (BUnit (A:=A))) (rep s) = Exn e (rep s)
  end.
Proof.
  intros H. unfold make. destruct (s_view s !! x); [done|]. destruct v as [u|]; [|done]. unfold bind. by rewrite (H u).
Qed.
Lemma ref_rep s (p : option (pointer nat)) (m : M (world A) (pointer nat)) :
  (∀ q, p = Some q → m (rep s) = Ok q (rep s)) →
  match ref_to s p with
  | Bad => True
  | Done r s' => bind m (λ p, ret (BPtr (A:=A) p)) (rep s) = Ok r (rep s')
  | Throws e => bind m (λ p, ret (BPtr (A:=A) p)) (rep s) = Exn e (rep s)
  end.
Proof. intros H. unfold ref_to. destruct p as [q|]; [|done]. unfold bind. by rewrite (H q). Qed.

(** ** Calls *)
Lemma aexec_rep o s : 1 ≤ wbits → wf s →
  match sstep o s with
  | Bad => True
  | Done r s' => aexec o (rep s) = Ok r (rep s')
  | Throws e => aexec o (rep s) = Exn e (rep s)
  end.
Proof.
  intros Hw H. destruct o as [b l|b|p|p v|x|x p q|x p n|x r|x y|x y|x|x|x|x|x|x|x i|x i|z x n|z x n|z x o|z x o n|x|x|x|x];
    cbn [sstep aexec]; try (unfold look; destruct (view_of s x) as [v|] eqn:Hv; [|done]; apply (view_usable _ _ _ H) in Hv as [Hx Hv]).
  - destruct (s_arr s !! b) eqn:E; [done|]. case_decide; [|done]. unfold bind, new_arr. cbn [arrs rep]. by rewrite E.
  - destruct (s_arr s !! b) eqn:E; [|done]. unfold bind, del_arr. cbn [arrs rep]. by rewrite E.
  - destruct p as [|b i]; [done|]. destruct (s_arr s !! b) as [l|] eqn:E; [|done]. case_decide; [|done].
    destruct (l !! Z.to_nat i) as [v|] eqn:Ev; [|done]. unfold bind. cbn [pread load arrays arrs rep]. rewrite E.
    rewrite (proj2 (Z.leb_le _ _)) by done. by rewrite Ev.
  - destruct p as [|b i]; [done|]. destruct (s_arr s !! b) as [l|] eqn:E; [|done]. case_decide; [|done].
    unfold bind. cbn [pwrite store arrays arrs rep]. rewrite E.
    by rewrite (proj2 (Z.leb_le _ _)), (proj2 (Z.ltb_lt _ _)) by lia.
  - apply make_rep. intros u [= <-]. apply noexcept_ok, (put_rep s x PNone).
  - destruct p as [|b o], q as [|b' o']; try done.
    + apply make_rep. intros u [= <-]. apply noexcept_ok, (put_rep s x PNone).
    + case_decide; [|done]. subst. apply make_rep. intros u Hu. cbn [from_to] in Hu.
      destruct (s_arr s !! b') as [l|] eqn:Hl; [|done]. case_decide; [|done]. injection Hu as <-. apply noexcept_ok.
      rewrite <-put_rep. cbn [span]. do 3 f_equal. lia.
  - apply make_rep. intros u Hu. by apply from_to_rep.
  - destruct r as [b| |y].
    + destruct (s_arr s !! b) as [l|] eqn:E; [|done]. apply make_rep. intros u [= <-]. apply noexcept_ok. unfold bind.
      cbn [range_data range_size padd extent arrays arrs rep]. rewrite E. cbn [fmap option_fmap option_map].
      rewrite (proj2 (Z.leb_le _ _)), (proj2 (Z.leb_le _ _)) by lia. cbn [andb]. cbn [arrs rep]. rewrite E. change (0 + 0) with 0.
      apply from_to_rep. cbn [from_to]. rewrite E. rewrite decide_True by lia. done.
    + apply make_rep. intros u [= <-]. by apply noexcept_ok, from_to_rep.
    + apply make_rep. intros u Hu. apply (view_usable _ _ _ H) in Hu as [Hy Hu]. apply noexcept_ok. unfold bind.
      cbn [range_data range_size]. rewrite (data_rep _ _ _ Hy), (size_rep _ _ _ Hw Hy Hu). rewrite <-(pos_0 (start u)).
      apply count_rep; [done|]. unfold sub. pose proof (usable_count _ _ Hw Hu). rewrite decide_True by lia.
      destruct u as [|b o n]; [done|]. cbn. do 2 f_equal. lia.
  - apply make_rep. intros u Hu. unfold ar_copy, bind. by rewrite (get_rep _ _ _ Hu), put_rep.
  - destruct (s_view s !! x) eqn:Hx; [|done]. destruct (s_view s !! y) as [v|] eqn:Hy; [|done]. unfold ar_assign, bind.
    by rewrite (get_rep _ _ _ Hx), (get_rep _ _ _ Hy), put_rep.
  - destruct (s_view s !! x) eqn:Hx; [|done]. unfold ar_destroy, del_view, bind. rewrite (get_rep _ _ _ Hx). unfold ret. f_equal.
    unfold rep, set_views. cbn [arrs views s_arr s_view]. by rewrite fmap_delete.
  - unfold bind. by rewrite (data_rep _ _ _ Hx).
  - unfold bind. by rewrite (size_rep _ _ _ Hw Hx Hv).
  - unfold bind, ar_empty. erewrite noexcept_ok; [reflexivity|]. unfold bind. rewrite (size_rep _ _ _ Hw Hx Hv). unfold ret. f_equal.
    destruct (Z.eqb_spec (count v) 0); symmetry; [by apply bool_decide_eq_true|by apply bool_decide_eq_false].
  - apply ref_rep. intros p Hp. apply noexcept_ok. by eapply index_rep.
  - apply ref_rep. intros p Hp. apply noexcept_ok. unfold bind. rewrite (size_rep _ _ _ Hw Hx Hv).
    assert (0 ≤ count v - 1) by (destruct v as [|b o n]; [done|]; cbn [place] in Hp; case_decide; [cbn [count]; lia|done]).
    pose proof (usable_count _ _ Hw Hv). rewrite to_size_small by lia. by eapply index_rep.
  - apply ref_rep. intros p Hp. by eapply index_rep.
  - case_decide; [|done]. unfold ar_at, bind. rewrite (size_rep _ _ _ Hw Hx Hv). case_decide.
    + rewrite (proj2 (Z.leb_gt _ _)) by lia. apply (ref_rep s (place v i)). intros p Hp. by eapply index_rep.
    + by rewrite (proj2 (Z.leb_le _ _)) by lia.
  - apply make_rep. intros u Hu. apply noexcept_ok. unfold bind. rewrite (data_rep _ _ _ Hx). rewrite <-(pos_0 (start v)). by eapply count_rep.
  - apply make_rep. intros u Hu. apply noexcept_ok. unfold bind. rewrite (data_rep _ _ _ Hx), (size_rep _ _ _ Hw Hx Hv).
    pose proof (usable_count _ _ Hw Hv). assert (0 ≤ count v - n ∧ 0 ≤ n) as [??] by (unfold sub in Hu; case_decide; [lia|done]).
    rewrite to_size_small by lia. rewrite (usable_padd _ _ _ Hv) by lia. by eapply count_rep.
  - apply make_rep. intros u Hu. apply noexcept_ok. unfold bind. rewrite (data_rep _ _ _ Hx).
    pose proof (usable_count _ _ Hw Hv). assert (0 ≤ o ∧ 0 ≤ count v - o) as [??] by (unfold sub in Hu; case_decide; [lia|done]).
    rewrite (usable_padd _ _ _ Hv) by lia. rewrite (size_rep _ _ _ Hw Hx Hv). rewrite to_size_small by lia. by eapply count_rep.
  - apply make_rep. intros u Hu. apply noexcept_ok. unfold bind. rewrite (data_rep _ _ _ Hx).
    assert (0 ≤ o ∧ o ≤ count v) as [??] by (unfold sub in Hu; case_decide; [lia|done]).
    rewrite (usable_padd _ _ _ Hv) by lia. by eapply count_rep.
  - unfold bind, ar_begin. by rewrite (noexcept_ok _ _ _ _ (data_rep _ _ _ Hx)).
  - unfold bind. rewrite (end_rep _ _ _ Hw Hx Hv). by destruct v.
  - unfold bind, ar_rbegin. rewrite (noexcept_ok _ _ _ _ (end_rep _ _ _ Hw Hx Hv)). by destruct v.
  - unfold bind, ar_rend, ar_begin. by rewrite (noexcept_ok _ _ _ _ (noexcept_ok _ _ _ _ (data_rep _ _ _ Hx))).
Qed.

Lemma make_wf s x (v : option part) r s' : wf s → make s x v = Done r s' →
  (∀ u, v = Some u → match u with PNone => True | PSub _ o n => 0 ≤ o ∧ 0 ≤ n end) → wf s'.
Proof.
  intros [H1 H2] Hm Hu. unfold make in Hm. destruct (s_view s !! x); [done|]. destruct v as [u|]; [|done]. injection Hm as _ <-.
  split; [done|]. intros y v. cbn [s_view set_view]. intros [[<- <-]|[_ ?]]%lookup_insert_Some; [by apply Hu|by eapply H2].
Qed.
Lemma sub_wf s v o n u : usable s v → sub v o n = Some u → match u with PNone => True | PSub _ o n => 0 ≤ o ∧ 0 ≤ n end.
Proof.
  intros Hv. unfold sub. case_decide; [|done]. intros [= <-]. destruct v as [|b o' n']; [done|]. destruct Hv as (? & ? & _). lia.
Qed.
Lemma from_to_wf s p n u : from_to s p n = Some u → match u with PNone => True | PSub _ o n => 0 ≤ o ∧ 0 ≤ n end.
Proof.
  destruct p as [|b o]; cbn [from_to]; [case_decide; [|done]; by intros [= <-]|].
  destruct (s_arr s !! b); [|done]. case_decide; [|done]. intros [= <-]. lia.
Qed.
Lemma sstep_wf o s r s' : wf s → sstep o s = Done r s' → wf s'.
Proof.
  intros H Hs. pose proof H as [H1 H2].
  destruct o as [b l|b|p|p v|x|x p q|x p n|x rr|x y|x y|x|x|x|x|x|x|x i|x i|z x n|z x n|z x o|z x o n|x|x|x|x];
    cbn [sstep] in Hs; try (unfold look in Hs; destruct (view_of s x) as [v|] eqn:Hv; [|done]; apply (view_usable _ _ _ H) in Hv as [Hx Hv]);
    try (by injection Hs as _ <-); try (unfold ref_to in Hs; destruct (place v _); [by injection Hs as _ <-|done]);
    try (eapply make_wf; [done..|]; intros u Hu; by eapply sub_wf).
  - destruct (s_arr s !! b) eqn:E; [done|]. case_decide; [|done]. injection Hs as _ <-. split; [|done].
    intros b' l'. cbn [s_arr]. intros [[<- <-]|[_ ?]]%lookup_insert_Some; [done|by eapply H1].
  - destruct (s_arr s !! b) eqn:E; [|done]. injection Hs as _ <-. split; [|done].
    intros b' l'. cbn [s_arr]. intros [_ ?]%lookup_delete_Some. by eapply H1.
  - destruct p as [|b i]; [done|]. destruct (s_arr s !! b) as [l|]; [|done]. case_decide; [|done]. destruct (l !! Z.to_nat i); [|done].
    by injection Hs as _ <-.
  - destruct p as [|b i]; [done|]. destruct (s_arr s !! b) as [l|] eqn:E; [|done]. case_decide; [|done]. injection Hs as _ <-. split; [|done].
    intros b' l'. cbn [s_arr]. intros [[<- <-]|[_ ?]]%lookup_insert_Some; [rewrite insert_length|]; by eapply H1.
  - eapply make_wf; [done..|]. by intros u [= <-].
  - destruct p as [|b o], q as [|b' o']; try done.
    + eapply make_wf; [done..|]. by intros u [= <-].
    + case_decide; [|done]. eapply make_wf; [done..|]. intros u Hu. by eapply from_to_wf.
  - eapply make_wf; [done..|]. intros u Hu. by eapply from_to_wf.
  - destruct rr as [b| |y].
    + destruct (s_arr s !! b); [|done]. eapply make_wf; [done..|]. intros u [= <-]. lia.
    + eapply make_wf; [done..|]. by intros u [= <-].
    + eapply make_wf; [done..|]. intros u [Hu _]%view_of_inv. by eapply H2.
  - eapply make_wf; [done..|]. intros u Hu. by eapply H2.
  - destruct (s_view s !! x) eqn:Hx; [|done]. destruct (s_view s !! y) as [v|] eqn:Hy; [|done]. injection Hs as _ <-. split; [done|].
    intros z u. cbn [s_view set_view]. intros [[<- <-]|[_ ?]]%lookup_insert_Some; [by eapply H2|by eapply H2].
  - destruct (s_view s !! x) eqn:Hx; [|done]. injection Hs as _ <-. split; [done|].
    intros z u. cbn [s_view]. intros [_ ?]%lookup_delete_Some. by eapply H2.
  - case_decide; [|done]. case_decide; [|done]. unfold ref_to in Hs. destruct (place v i); [by injection Hs as _ <-|done].
Qed.
Lemma arun_rep os : 1 ≤ wbits → ∀ s rs s', wf s → srun os s = Some (rs, s') → arun os (rep s) = Finished rs (rep s') ∧ wf s'.
Proof.
  intros Hw. induction os as [|o os IH]; intros s rs s' H Hs; cbn [srun arun] in *.
  - by injection Hs as <- <-.
  - pose proof (aexec_rep o s Hw H) as Ho. destruct (sstep o s) as [|r s1|e] eqn:E; [done| |].
    + destruct (srun os s1) as [[rs1 s2]|] eqn:E1; [|done]. injection Hs as <- <-.
      destruct (IH _ _ _ (sstep_wf _ _ _ _ H E) E1) as [E2 ?]. by rewrite Ho, E2.
    + destruct (srun os s) as [[rs1 s2]|] eqn:E1; [|done]. injection Hs as <- <-.
      destruct (IH _ _ _ H E1) as [E2 ?]. by rewrite Ho, E2.
Qed.
Lemma wf_init : wf init_state.
Proof. done. Qed.
Lemma reachable_rep w s : 1 ≤ wbits → reachable w s → w = rep s ∧ wf s.
Proof.
  intros Hw (os & rs & Hs & Hr). destruct (arun_rep os Hw _ _ _ wf_init Hs) as [E ?].
  assert (rep init_state = init_world) as Ei by (unfold rep; cbn [s_arr s_view init_state]; by rewrite fmap_empty). rewrite Ei in E. rewrite E in Hr. by injection Hr as <-.
Qed.
End proofs.
