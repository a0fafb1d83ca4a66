(** Properties C48-C54: variant. *)
From stdpp Require Import prelude gmap.
From Coq Require Import Lia.
From Verif Require Import Cpp OrderSpec VariantModel VariantSpec VariantProofs.
Local Open Scope nat_scope.

Section props.
Context `{C : VarCfg} (Hcfg : cfg_ok).
Notation state := (gmap nat (nat * V)).
Notation n := (length alts).

Lemma reachable_shows w m : reachable w m → shows w m.
Proof. intros H. destruct (reachable_rep Hcfg _ _ H) as (k & l & -> & Hwf). by apply rep_shows. Qed.

(** ** C48 *)
(** every history inside the contract runs to its end with the results of the same history on
    tagged values, whichever constructions fail *)
Theorem C48_variant_is_tagged_value_partial os rs m k l :
  srun os ∅ 0 [] = Some (rs, m, k, l) →
  ∃ w, vrun os init_world = Finished rs w ∧ shows w m ∧ ncopy w = k ∧ visits w = l.
Proof.
  intros H. apply (vrun_rep Hcfg) in H as [H Hwf]; [|apply wf_empty]. rewrite rep_init in H. exists (rep m k l).
  split; [done|]. split; [by apply rep_shows|done].
Qed.
(** one more call, with all its outcomes *)
Theorem C48_variant_call_partial w m o :
  reachable w m →
  match sstep o m with
  | Bad => True
  | Throws e => vexec o w = Exn e w
  | Done r m' None => ∃ w', vexec o w = Ok r w' ∧ shows w' m' ∧ ncopy w' = ncopy w
  | Done r m' (Some mf) =>
      ∃ w', ncopy w' = S (ncopy w) ∧
        if copy_fails (ncopy w) then vexec o w = Exn ElementThrow w' ∧ shows w' mf
        else vexec o w = Ok r w' ∧ shows w' m'
  end.
Proof.
  intros H. destruct (reachable_rep Hcfg _ _ H) as (k & l & -> & Hwf). pose proof (vexec_rep Hcfg o m k l Hwf) as Ho.
  pose proof (λ r m' f, sstep_wf Hcfg o m r m' f Hwf) as Hw. pose proof (sstep_failing o m) as Hf.
  destruct (sstep o m) as [|r m' [mf|]|e]; [done| | |done].
  - cbn [ncopy rep]. rewrite Ho. specialize (Hf _ _ _ eq_refl) as ->. destruct (copy_fails k).
    + exists (rep m (S k) l). split; [done|]. split; [done|by apply rep_shows].
    + exists (rep m' (S k) l). split; [done|]. split; [done|]. apply rep_shows; [done|by eapply Hw].
  - eexists _. split; [exact Ho|]. split; [|done]. apply rep_shows; [done|by eapply Hw].
Qed.
(** a variant always holds one of its alternatives, and exactly one *)
Theorem C48_variant_never_valueless_partial w m x o :
  reachable w m → objs w !! Some x = Some o →
  ∃ i T, alts !! i = Some T ∧ (∃ v, o = Var (Some (i, v)) i) ∧
    var_holds (Some x) T w = Ok true w ∧
    ∀ j U, alts !! j = Some U → j ≠ i → var_holds (Some x) U w = Ok false w.
Proof.
  intros H Ho. destruct (reachable_shows _ _ H) as [Hs _]. destruct (reachable_rep Hcfg _ _ H) as (k & l & -> & Hwf).
  cbn [objs rep] in Ho. rewrite emb_Some in Ho. destruct (m !! x) as [[i v]|] eqn:Hx; [|done]. injection Ho as <-.
  destruct (Hs x i v Hx) as [Hi Hh]. destruct (lookup_lt_is_Some_2 _ _ Hi) as [T HT]. exists i, T. split; [done|]. split; [by exists v|].
  split; [by rewrite (proj1 (Hh i T HT)), bool_decide_eq_true_2|]. intros j U HU Hne.
  rewrite (proj1 (Hh j U HU)). by rewrite bool_decide_eq_false_2.
Qed.

(** ** C49 *)
(** a live object of the i-th alternative in the storage of [p] *)
Definition alive (w : world) (p : option nat) (i : nat) : Prop := ∃ o v, objs w !! p = Some o ∧ v_storage o = Some (i, v).
(** reading, moving from or destroying a dead object or one of another alternative,
    constructing over a live one and releasing the storage of a live one all fault *)
Theorem C49_variant_never_faults_partial os rs m k l :
  srun os ∅ 0 [] = Some (rs, m, k, l) → (∀ f, vrun os init_world ≠ Faulted f) ∧ vrun os init_world ≠ Aborted.
Proof. intros H. destruct (C48_variant_is_tagged_value_partial _ _ _ _ _ H) as (w & -> & _). done. Qed.
(** the only live objects are those of the current alternatives; no temporary survives *)
Theorem C49_variant_alive_partial w m p i :
  reachable w m → alive w p i ↔ ∃ x v, p = Some x ∧ m !! x = Some (i, v).
Proof.
  intros H. destruct (reachable_rep Hcfg _ _ H) as (k & l & -> & Hwf). unfold alive. cbn [objs rep]. split.
  - intros (o & v & Ho & Hv). destruct p as [x|]; [|by rewrite emb_None in Ho]. rewrite emb_Some in Ho.
    destruct (m !! x) as [c|] eqn:E; [|done]. injection Ho as <-. cbn [cell v_storage] in Hv. injection Hv as ->. by exists x, v.
  - intros (x & v & -> & Hx). exists (cell (i, v)), v. by rewrite emb_Some, Hx.
Qed.
Theorem C49_variant_destroy w m x :
  reachable w m → is_Some (m !! x) →
  ∃ w', var_destroy (Some x) w = Ok tt w' ∧ objs w' = delete (Some x) (objs w) ∧ ∀ i, ¬ alive w' (Some x) i.
Proof.
  intros H [[i v] Hx]. destruct (reachable_rep Hcfg _ _ H) as (k & l & -> & Hwf).
  exists (World (delete (Some x) (emb m)) k l). split; [|split; [done|]].
  - apply (destroy_run _ _ _ _ i v); [by rewrite emb_Some, Hx|by eapply Hwf].
  - intros j (o & u & Ho & _). cbn [objs] in Ho. by rewrite lookup_delete in Ho.
Qed.
Theorem C49_variant_no_leak_partial os rs k l :
  srun os ∅ 0 [] = Some (rs, ∅, k, l) → ∃ w, vrun os init_world = Finished rs w ∧ ∀ p i, ¬ alive w p i.
Proof.
  intros H. destruct (C48_variant_is_tagged_value_partial _ _ _ _ _ H) as (w & Hw & (_ & Hs & Hn) & _). exists w. split; [done|].
  intros [x|] i (o & v & Ho & _); [|by rewrite Hn in Ho]. by rewrite (Hs x (lookup_empty x)) in Ho.
Qed.

(** ** C50 *)
(** a call that throws changes no variant *)
Theorem C50_variant_strong_guarantee_partial w m o e w' :
  reachable w m → sstep o m ≠ Bad → vexec o w = Exn e w' → objs w' = objs w ∧ visits w' = visits w ∧ shows w' m.
Proof.
  intros H Hb He. destruct (reachable_rep Hcfg _ _ H) as (k & l & -> & Hwf). pose proof (vexec_rep Hcfg o m k l Hwf) as Ho.
  pose proof (sstep_failing o m) as Hf. destruct (sstep o m) as [|r m' [mf|]|e']; [done| | |].
  - rewrite He in Ho. specialize (Hf _ _ _ eq_refl) as ->. destruct (copy_fails k); [|done]. injection Ho as -> ->.
    split; [done|]. split; [done|]. by apply rep_shows.
  - by rewrite Ho in He.
  - rewrite Ho in He. injection He as <- <-. split; [done|]. split; [done|]. by apply rep_shows.
Qed.
(** assignment and emplace may fail, and then do not change anything, if T(args...) may throw
    whenever T{args...} may *)
Theorem C50_variant_assign_emplace_partial w m x T i a v m1 c :
  reachable w m → m !! x = Some c → alts !! i = Some T → sarg m i a = Some (v, m1) →
  paren_safe i a = false → brace_safe i a = false → copy_fails (ncopy w) = true →
  ∃ w', var_assign (Some x) T a w = Exn ElementThrow w' ∧ var_emplace (Some x) T a w = Exn ElementThrow w' ∧
    objs w' = objs w ∧ shows w' m.
Proof.
  rewrite <-declared_safe, <-nothrow_safe. intros H Hx HT Ha Hd Hn Hk. destruct (reachable_rep Hcfg _ _ H) as (k & l & -> & Hwf). cbn [ncopy rep] in Hk.
  apply (pos_lookup Hcfg) in HT. exists (rep m (S k) l). split; [|split; [|split; [done|by apply rep_shows]]].
  - unfold var_assign. rewrite (assign_rep Hcfg _ _ _ _ _ _ _ _ _ _ Hwf Hx HT Ha). by rewrite Hn, Hk.
  - rewrite (emplace_rep Hcfg _ _ _ _ _ _ _ _ _ _ Hwf Hx HT Ha) by by rewrite Hd. by rewrite Hn, Hk.
Qed.
(** otherwise, if the constructor that T{args...} selects throws after all, the old value is gone,
    but the variant claims to hold it, and its destructor destroys it again *)
Lemma emplace_braces_run k l m x j u T i a v m1 :
  wf m → m !! x = Some (j, u) → alts !! i = Some T → sarg m i a = Some (v, m1) → mentions x a = false →
  paren_safe i a = true → brace_safe i a = false → copy_fails k = true →
  var_emplace (Some x) T a (rep m k l) = Exn ElementThrow (World (<[Some x:=Var None j]> (emb m)) (S k) l).
Proof.
  rewrite <-declared_safe, <-nothrow_safe. intros Hwf Hx HT Ha Hm Hd Hn Hk. pose proof (Hwf _ _ _ Hx) as Hj.
  destruct (pos_index Hcfg _ _ (pos_lookup Hcfg _ _ HT)) as (HI & Hi & _).
  unfold var_emplace. rewrite (alt_mutable Hcfg _ _ HT), HI, Hd. pose proof (emb_at _ _ _ _ Hx) as Hg. unfold bind, rep.
  rewrite (get_type_run _ _ _ _ _ _ Hg). unfold st_destroy_any. rewrite dispatch_run by done.
  rewrite (st_destroy_run _ _ _ _ _ _ _ Hg). unfold st_emplace. rewrite dispatch_run by done. unfold bind.
  rewrite (new_value_run _ _ _ m i a v m1); [|done|].
  2:{ intros y c Hy Hc. rewrite lookup_insert_ne by congruence. by rewrite emb_Some, Hc. }
  by rewrite Hn, Hk.
Qed.
Theorem C50_emplace_braces_refuted w m x j u T i a v m1 :
  reachable w m → m !! x = Some (j, u) → alts !! i = Some T → sarg m i a = Some (v, m1) → mentions x a = false →
  paren_safe i a = true → brace_safe i a = false → copy_fails (ncopy w) = true →
  ∃ w', var_emplace (Some x) T a w = Exn ElementThrow w' ∧ alive w (Some x) j ∧ ∀ i', ¬ alive w' (Some x) i'.
Proof.
  intros H Hx HT Ha Hm Hd Hn Hk. destruct (reachable_rep Hcfg _ _ H) as (k & l & -> & Hwf).
  rewrite (emplace_braces_run k l m x j u T i a v m1) by done. eexists. split; [done|]. split.
  - exists (cell (j, u)), u. split; [|done]. cbn [objs rep]. by rewrite emb_Some, Hx.
  - intros i' (o & v' & Ho & Hv). cbn [objs] in Ho. rewrite lookup_insert in Ho. injection Ho as <-. done.
Qed.
Theorem C48_valueless_refuted w m x j u U T i a v m1 :
  reachable w m → m !! x = Some (j, u) → alts !! j = Some U → alts !! i = Some T → sarg m i a = Some (v, m1) → mentions x a = false →
  paren_safe i a = true → brace_safe i a = false → copy_fails (ncopy w) = true →
  ∃ w', var_emplace (Some x) T a w = Exn ElementThrow w' ∧ var_holds (Some x) U w' = Ok true w' ∧
    var_get (Some x) U w' = Stuck DeadObject.
Proof.
  intros H Hx HU HT Ha Hm Hd Hn Hk. destruct (reachable_rep Hcfg _ _ H) as (k & l & -> & Hwf).
  destruct (pos_index Hcfg _ _ (pos_lookup Hcfg _ _ HU)) as (HI & _).
  rewrite (emplace_braces_run k l m x j u T i a v m1) by done. eexists. split; [done|].
  assert (Hh : var_holds (Some x) U (World (<[Some x:=Var None j]> (emb m)) (S k) l) = Ok true (World (<[Some x:=Var None j]> (emb m)) (S k) l)).
  { unfold var_holds, noexcept, bind. rewrite (get_type_run _ _ _ _ None j) by by rewrite lookup_insert.
    cbn [ret]. by rewrite HI, Nat.eqb_refl. }
  split; [done|]. unfold var_get, var_get_if, noexcept, bind. rewrite Hh. cbn [negb ret]. rewrite HI.
  unfold st_get, bind, get_var. cbn [objs]. by rewrite lookup_insert.
Qed.
Theorem C49_destroy_twice_refuted w m x j u T i a v m1 :
  reachable w m → m !! x = Some (j, u) → alts !! i = Some T → sarg m i a = Some (v, m1) → mentions x a = false →
  paren_safe i a = true → brace_safe i a = false → copy_fails (ncopy w) = true →
  vrun [VEmplace x T a; VDestroy x] w = Faulted DeadObject.
Proof.
  intros H Hx HT Ha Hm Hd Hn Hk. destruct (reachable_rep Hcfg _ _ H) as (k & l & -> & Hwf).
  pose proof (Hwf _ _ _ Hx) as Hj. cbn [vrun vexec]. unfold obs, bind at 1.
  rewrite (emplace_braces_run k l m x j u T i a v m1) by done. cbn [vrun]. unfold bind at 1, var_destroy, noexcept, bind.
  rewrite (get_type_run _ _ _ _ None j) by by rewrite lookup_insert. unfold st_destroy_any. rewrite dispatch_run by done.
  unfold st_destroy, bind, get_var. cbn [objs]. by rewrite lookup_insert.
Qed.

(** ** C51 *)
Theorem C51_variant_access_partial w m x i v j T :
  reachable w m → m !! x = Some (i, v) → alts !! j = Some T →
  var_holds (Some x) T w = Ok (bool_decide (i = j)) w ∧
  var_get_if (Some x) T w = Ok (if decide (i = j) then Some i else None) w ∧
  var_get (Some x) T w = if decide (i = j) then Ok v w else Exn BadVariantAccess w.
Proof.
  intros H Hx HT. destruct (reachable_shows _ _ H) as [Hs _]. destruct (Hs x i v Hx) as [_ Hh].
  destruct (Hh j T HT) as [H1 H2]. split; [done|]. split; [|done].
  destruct (reachable_rep Hcfg _ _ H) as (k & l & -> & Hwf). unfold rep. apply (pos_lookup Hcfg) in HT.
  rewrite (get_if_run Hcfg _ _ _ _ i v T j); [|by rewrite emb_Some, Hx|done]. by destruct (decide (i = j)) as [<-|].
Qed.
(** get() && moves the value out, the variant keeps its alternative *)
Theorem C51_variant_get_rvalue w m x i v j T :
  reachable w m → m !! x = Some (i, v) → alts !! j = Some T →
  if decide (i = j) then ∃ w', var_take (Some x) T w = Ok v w' ∧ shows w' (<[x:=(i, moved i v)]> m)
  else var_take (Some x) T w = Exn BadVariantAccess w.
Proof.
  intros H Hx HT. destruct (reachable_rep Hcfg _ _ H) as (k & l & -> & Hwf). apply (pos_lookup Hcfg) in HT.
  pose proof (vexec_rep Hcfg (VTake x T) m k l Hwf) as Ho. cbn [sstep vexec] in Ho. rewrite Hx, HT in Ho. unfold obs, bind in Ho.
  destruct (decide (i = j)) as [<-|]; destruct (var_take (Some x) T (rep m k l)) as [v' w'| | |]; try done.
  - injection Ho as -> ->. eexists _. split; [done|]. apply rep_shows; [done|]. apply wf_insert; [done|]. by eapply Hwf.
  - by injection Ho as -> ->.
Qed.
(** the visitor is called once, with the current value, and may change it *)
Theorem C51_variant_visit w m x i v f :
  reachable w m → m !! x = Some (i, v) →
  ∃ w', var_visit (Some x) f w = Ok tt w' ∧ visits w' = visits w ++ [(i, v)] ∧ shows w' (<[x:=(i, f i v)]> m).
Proof.
  intros H Hx. destruct (reachable_rep Hcfg _ _ H) as (k & l & -> & Hwf).
  pose proof (vexec_rep Hcfg (VVisit x f) m k l Hwf) as Ho. cbn [sstep vexec svisits] in Ho. rewrite Hx in Ho. unfold obs, bind in Ho.
  destruct (var_visit (Some x) f (rep m k l)) as [[] w'| | |]; try done. injection Ho as ->.
  eexists _. split; [done|]. split; [done|]. apply rep_shows; [done|]. apply wf_insert; [done|]. by eapply Hwf.
Qed.
(** writing through get() *)
Theorem C51_variant_write w m x i v T u :
  reachable w m → m !! x = Some (i, v) → alts !! i = Some T →
  ∃ w', var_write (Some x) T u w = Ok tt w' ∧ shows w' (<[x:=(i, u)]> m).
Proof.
  intros H Hx HT. destruct (reachable_rep Hcfg _ _ H) as (k & l & -> & Hwf). apply (pos_lookup Hcfg) in HT.
  pose proof (vexec_rep Hcfg (VWrite x T u) m k l Hwf) as Ho. cbn [sstep vexec] in Ho. rewrite Hx, HT, decide_True in Ho by done.
  unfold obs, bind in Ho. destruct (var_write (Some x) T u (rep m k l)) as [[] w'| | |]; try done. injection Ho as ->.
  eexists _. split; [done|]. apply rep_shows; [done|]. apply wf_insert; [done|]. by eapply Hwf.
Qed.
(** holds<const T>() is accepted for an alternative T but false even if T is held *)
Theorem C51_holds_const_refuted w m x i v T :
  reachable w m → m !! x = Some (i, v) → alts !! i = Some T →
  can_store (Ty true (t_id T)) = true ∧ var_holds (Some x) T w = Ok true w ∧
  var_holds (Some x) (Ty true (t_id T)) w = Ok false w.
Proof.
  intros H Hx HT. destruct (C51_variant_access_partial w m x i v i T H Hx HT) as [Hh _]. rewrite bool_decide_eq_true_2 in Hh by done.
  destruct (reachable_rep Hcfg _ _ H) as (k & l & -> & Hwf). pose proof (Hwf _ _ _ Hx) as Hi. pose proof (ok_few Hcfg).
  pose proof (alt_mutable Hcfg _ _ HT) as Hm. split; [|split; [done|]].
  - unfold can_store. replace (remove_const (Ty true (t_id T))) with T by (by rewrite <-Hm at 1).
    destruct (pos_index Hcfg T i (pos_lookup Hcfg _ _ HT)) as (-> & _). unfold not_found. destruct (Nat.eqb_spec i 255); [lia|done].
  - assert (pos (Ty true (t_id T)) = None) as Hp.
    { apply find_none. intros Hin. apply elem_of_list_lookup in Hin as [j Hj]. pose proof (ok_mutable Hcfg) as Hall.
      rewrite Forall_lookup in Hall. by specialize (Hall _ _ Hj). }
    unfold var_holds, noexcept, bind, rep. rewrite (get_type_run _ _ _ _ (Some (i, v)) i) by by rewrite emb_Some, Hx.
    rewrite (pos_none Hcfg _ Hp). unfold not_found. destruct (Nat.eqb_spec i 255); [lia|done].
Qed.

(** ** C52 *)
Theorem C52_variant_comparisons ops w m x y a b :
  reachable w m → m !! x = Some a → m !! y = Some b →
  (λ f : M world bool, f w) <$> var_six ops x y = (λ r, Ok r w) <$> answer_list (tag_six ops a b).
Proof. intros H. destruct (reachable_rep Hcfg _ _ H) as (k & l & -> & Hwf). by apply var_six_rep. Qed.
(** ordering by alternative first and by value then is an order *)
Theorem C52_tag_order_total (lt eq : nat → V → V → Prop) :
  (∀ i, total_order (lt i) (eq i)) → total_order (tag_order lt) (tag_equal eq).
Proof.
  intros T. split.
  - intros [i x] [?|[_ ?]]; cbn [fst snd] in *; [lia|]. by eapply (to_irrefl _ _ (T i)).
  - intros [i x] [j y] [k z]; unfold tag_order; cbn [fst snd]. intros [?|[-> ?]] [?|[-> ?]]; [left; lia|by left|by left|].
    right. split; [done|]. by eapply (to_trans _ _ (T _)).
  - intros [i x] [j y]; unfold tag_order, tag_equal; cbn [fst snd]. split.
    + intros [-> He]. apply (to_equal _ _ (T _)) in He as [? ?]. split; intros [?|[_ ?]]; (lia || done).
    + intros [H1 H2]. assert (i = j) as <- by (destruct (lt_eq_lt_dec i j) as [[?|?]|?]; [|done|]; exfalso; auto).
      split; [done|]. apply (to_equal _ _ (T _)). split; intros ?; [apply H1|apply H2]; by right.
  - intros [i x] [j y] [k z]; unfold tag_equal; cbn [fst snd]. intros [-> ?] [-> ?]. split; [done|]. by eapply (to_equal_trans _ _ (T _)).
Qed.
(** all six operators answer according to it, if every alternative is totally ordered *)
Theorem C52_variant_one_order ops :
  (∀ i, ops_total (H:=ops i)) →
  ∃ lt eq : nat * V → nat * V → Prop, total_order lt eq ∧ (∀ i u j v, i < j → lt (i, u) (j, v)) ∧
    ∀ w m x y a b, reachable w m → m !! x = Some a → m !! y = Some b →
      ∃ c, (λ f : M world bool, f w) <$> var_six ops x y = (λ r, Ok r w) <$> answer_list (answers_for c) ∧
        match c with Lt => lt a b | Eq => eq a b | Gt => lt b a end.
Proof.
  intros Hops.
  set (lt := λ i u v, ops i u v = answers_for Lt). set (eq := λ i u v, ops i u v = answers_for Eq).
  assert (Hto : ∀ i, total_order (lt i) (eq i) ∧ ∀ u v, ops i u v = answers_for Gt ↔ lt i v u).
  { intros i. destruct (Hops i) as (l & e & T & Hl).
    assert (Hlt : ∀ u v, lt i u v ↔ l u v).
    { intros u v. unfold lt. destruct (Hl u v) as (c & Hc & Hm). unfold six_ops in Hc. rewrite Hc. destruct c; cbn [answers_for].
      - split; [done|]. intros Hl'. apply (to_equal _ _ T) in Hm as [? ?]. done.
      - done.
      - split; [done|]. intros Hl'. exfalso. eapply (to_irrefl _ _ T). by eapply (to_trans _ _ T). }
    assert (Heq : ∀ u v, eq i u v ↔ e u v).
    { intros u v. unfold eq. destruct (Hl u v) as (c & Hc & Hm). unfold six_ops in Hc. rewrite Hc. destruct c; cbn [answers_for].
      - done.
      - split; [done|]. rewrite (to_equal _ _ T). tauto.
      - split; [done|]. rewrite (to_equal _ _ T). tauto. }
    split.
    - split.
      + intros u. rewrite Hlt. apply (to_irrefl _ _ T).
      + intros u v z. rewrite !Hlt. apply (to_trans _ _ T).
      + intros u v. rewrite Heq, !Hlt. apply (to_equal _ _ T).
      + intros u v z. rewrite !Heq. apply (to_equal_trans _ _ T).
    - intros u v. rewrite Hlt. destruct (Hl u v) as (c & Hc & Hm). unfold six_ops in Hc. rewrite Hc. destruct c; cbn [answers_for].
      + split; [done|]. apply (to_equal _ _ T) in Hm as [? ?]. done.
      + split; [done|]. intros Hl'. exfalso. eapply (to_irrefl _ _ T). by eapply (to_trans _ _ T).
      + done. }
  exists (tag_order lt), (tag_equal eq). split; [apply C52_tag_order_total; intros i; apply Hto|]. split; [intros; by left|].
  intros w m x y [i u] [j v] Hre Hx Hy. rewrite (C52_variant_comparisons ops _ _ _ _ _ _ Hre Hx Hy). unfold tag_six, tag_order, tag_equal. cbn [fst snd].
  destruct (Nat.compare_spec i j) as [<-|Hij|Hij].
  - destruct (Hops i) as (l & e & T & Hl). destruct (Hl u v) as (c & Hc & _). unfold six_ops in Hc. rewrite Hc. exists c. split; [done|].
    destruct c; [by split|by right; split|]. right. split; [done|]. by apply Hto.
  - exists Lt. split; [done|]. by left.
  - exists Gt. split; [done|]. by left.
Qed.

(** ** C53 *)
(** a copy that may throw goes through a temporary: v.emplace<T>(v.get<T>()) is harmless *)
Theorem C53_emplace_own_throwing_partial w m x i v T :
  reachable w m → m !! x = Some (i, v) → alts !! i = Some T → decl_copy i = false →
  ∃ w', (if negb (nothrow_copy i) && copy_fails (ncopy w) then var_emplace (Some x) T (ACopy (RAlt x)) w = Exn ElementThrow w'
         else var_emplace (Some x) T (ACopy (RAlt x)) w = Ok v w') ∧ shows w' m.
Proof.
  intros H Hx HT Hn. destruct (reachable_rep Hcfg _ _ H) as (k & l & -> & Hwf). cbn [ncopy rep].
  assert (Ha : sarg m i (ACopy (RAlt x)) = Some (v, m)) by (cbn [sarg sref]; by rewrite Hx, decide_True).
  rewrite (emplace_rep Hcfg _ _ _ _ _ _ _ _ _ _ Hwf Hx (pos_lookup Hcfg _ _ HT) Ha) by (cbn [declared]; by rewrite Hn).
  cbn [nothrow]. exists (rep m (if nothrow_copy i then k else S k) l). rewrite insert_id by done.
  split; [|by apply rep_shows]. destruct (nothrow_copy i), (copy_fails k); done.
Qed.
(** a copy that is noexcept reads the value after it has been destroyed *)
Theorem C53_emplace_own_nothrow_refuted w m x i v T :
  reachable w m → m !! x = Some (i, v) → alts !! i = Some T → decl_copy i = true →
  var_emplace (Some x) T (ACopy (RAlt x)) w = Stuck DeadObject.
Proof.
  intros H Hx HT Hn. destruct (reachable_rep Hcfg _ _ H) as (k & l & -> & Hwf).
  pose proof (Hwf _ _ _ Hx) as Hi. destruct (pos_index Hcfg _ _ (pos_lookup Hcfg _ _ HT)) as (HI & _).
  unfold var_emplace. rewrite (alt_mutable Hcfg _ _ HT), HI. cbn [declared]. rewrite Hn. unfold bind, rep.
  pose proof (emb_at _ _ _ _ Hx) as Hg. rewrite (get_type_run _ _ _ _ _ _ Hg). unfold st_destroy_any. rewrite dispatch_run by done.
  rewrite (st_destroy_run _ _ _ _ _ _ _ Hg). unfold st_emplace. rewrite dispatch_run by done. cbn [new_value rd_ref].
  unfold bind, st_get, bind, get_var. cbn [objs]. by rewrite lookup_insert.
Qed.
(** the same for an rvalue, v.emplace<T>(std::move(v.get<T>())), for every T *)
Theorem C53_emplace_own_rvalue_refuted w m x i v T :
  reachable w m → m !! x = Some (i, v) → alts !! i = Some T →
  var_emplace (Some x) T (AMove (RAlt x)) w = Stuck DeadObject.
Proof.
  intros H Hx HT. destruct (reachable_rep Hcfg _ _ H) as (k & l & -> & Hwf).
  pose proof (Hwf _ _ _ Hx) as Hi. destruct (pos_index Hcfg _ _ (pos_lookup Hcfg _ _ HT)) as (HI & _).
  unfold var_emplace. rewrite (alt_mutable Hcfg _ _ HT), HI. cbn [declared]. unfold bind, rep.
  pose proof (emb_at _ _ _ _ Hx) as Hg. rewrite (get_type_run _ _ _ _ _ _ Hg). unfold st_destroy_any. rewrite dispatch_run by done.
  rewrite (st_destroy_run _ _ _ _ _ _ _ Hg). unfold st_emplace. rewrite dispatch_run by done. cbn [new_value].
  unfold bind, st_get, bind, get_var. cbn [objs]. by rewrite lookup_insert.
Qed.
(** assignment from the own value is harmless in all cases: it always makes a temporary *)
Theorem C53_assign_own w m x i v T :
  reachable w m → m !! x = Some (i, v) → alts !! i = Some T →
  ∃ w', var_assign (Some x) T (AMove (RAlt x)) w = Ok tt w' ∧ shows w' m.
Proof.
  intros H Hx HT. destruct (reachable_rep Hcfg _ _ H) as (k & l & -> & Hwf).
  assert (Ha : sarg m i (AMove (RAlt x)) = Some (v, <[x:=(i, moved i v)]> m)) by (cbn [sarg sref]; by rewrite Hx, decide_True).
  unfold var_assign. rewrite (assign_rep Hcfg _ _ _ _ _ _ _ _ _ _ Hwf Hx (pos_lookup Hcfg _ _ HT) Ha). cbn [nothrow].
  exists (rep m k l). rewrite insert_insert, insert_id by done. split; [done|by apply rep_shows].
Qed.
End props.

(** ** C54 *)
Theorem C54_determine_index T l :
  length l ≤ 254 →
  (∀ i, at_position T l i → determine_index T l 0 = i) ∧
  (T ∈ l → at_position T l (determine_index T l 0)) ∧
  (T ∉ l → determine_index T l 0 = not_found) ∧
  (∀ i U, at_position U l i → i ≠ not_found).
Proof.
  intros Hl. pose proof (determine_index_from T l 0 ltac:(lia)) as Hd. split; [|split; [|split]].
  - intros i Hi. apply find_position in Hi. rewrite Hi in Hd. lia.
  - intros Hin. destruct (fst <$> list_find (T =.) l) as [i|] eqn:E; [|by apply find_none in E].
    apply find_position in E. destruct Hd as [-> _]. done.
  - intros Hin. apply find_none in Hin. by rewrite Hin in Hd.
  - intros i U [Hi _]. apply lookup_lt_Some in Hi. unfold not_found. lia.
Qed.
Theorem C54_validate_unique l : length l ≤ 254 → validate_unique l = true ↔ NoDup l.
Proof. intros H. apply validate_unique_nodup. lia. Qed.
(** the storage fits the largest alternative exactly *)
Theorem C54_max_sizeof sizeof l :
  (∀ T, T ∈ l → sizeof T ≤ max_sizeof sizeof l 0) ∧ (l ≠ [] → ∃ T, T ∈ l ∧ sizeof T = max_sizeof sizeof l 0).
Proof.
  assert (H : ∀ s, s ≤ max_sizeof sizeof l s ∧ (∀ T, T ∈ l → sizeof T ≤ max_sizeof sizeof l s) ∧
    (max_sizeof sizeof l s = s ∨ ∃ T, T ∈ l ∧ sizeof T = max_sizeof sizeof l s)).
  { induction l as [|h t IH]; intros s; cbn [max_sizeof].
    - split; [done|]. split; [|by left]. intros T HT. by apply elem_of_nil in HT.
    - destruct (IH (if s <? sizeof h then sizeof h else s)) as (H1 & H2 & H3).
      set (r := max_sizeof sizeof t (if s <? sizeof h then sizeof h else s)) in *.
      assert (sizeof h ≤ r ∧ s ≤ r) as [? ?] by (destruct (Nat.ltb_spec s (sizeof h)); lia).
      split; [done|]. split.
      + intros T [->|HT]%elem_of_cons; [done|by apply H2].
      + destruct H3 as [H3|(T & HT & H3)].
        * destruct (Nat.ltb_spec s (sizeof h)) as [Hs|Hs]; [|by left]. right. exists h. split; [by left|done].
        * right. exists T. split; [by right|done]. }
  destruct (H 0) as (_ & H2 & H3). split; [done|]. intros Hne. destruct H3 as [H3|(T & HT & H3)].
  - destruct l as [|T l]; [done|]. exists T. split; [by left|]. specialize (H2 T ltac:(by left)). lia.
  - by exists T.
Qed.
Theorem C54_determine_type i l : determine_type i l = l !! i.
Proof. apply determine_type_lookup. Qed.

(** ** Examples: three alternatives, values are natural numbers, a moved-from value is 90;
    copying the first alternative is noexcept; constructor 2 is one for an initializer_list that
    may throw, beside a noexcept one for the same arguments in parentheses *)
Definition tA := Ty false 10.
Definition tB := Ty false 20.
Definition tC := Ty false 30.
Definition vcfg (cf : nat → bool) : VarCfg :=
  {| V := nat; alts := [tA; tB; tC]; moved := λ _ _, 90; make := λ i c l, 10 * i + c + fold_right Nat.add 0 l;
     nothrow_copy := λ i, i =? 0; nothrow_make := λ _ c, c =? 1;
     decl_copy := λ i, i =? 0; decl_make := λ _ c, (c =? 1) || (c =? 2); copy_fails := cf |}.
Lemma vcfg_ok cf : @cfg_ok (vcfg cf).
Proof. split; [done|cbn; lia|done|]. by repeat constructor. Qed.
Definition vgood : VarCfg := vcfg (λ _, false).
Definition vfails (l : list nat) : VarCfg := vcfg (λ k, existsb (Nat.eqb k) l).
Definition rv {cf} (v : nat) : @ref (vcfg cf) := @RVal (vcfg cf) v.
Definition bv {cf} (v : nat) : @vobs (vcfg cf) := @BVal (vcfg cf) v.
Definition inc {cf} : nat → @V (vcfg cf) → @V (vcfg cf) := λ (_ v : nat), S v.
Definition vcheck {cf A} (f : @world (vcfg cf) → gmap nat (nat * nat) → A) (os : list (@vop (vcfg cf))) : option A :=
  match @srun (vcfg cf) os ∅ 0 [], @vrun (vcfg cf) os init_world with
  | Some (_, m, _, _), Finished _ w => Some (f w m)
  | _, _ => None
  end.
Lemma vcheck_reachable {cf} (f : @world (vcfg cf) → gmap nat (nat * nat) → bool) os :
  vcheck f os = Some true → ∃ w m, @reachable (vcfg cf) w m ∧ f w m = true.
Proof.
  unfold vcheck. destruct (@srun (vcfg cf) os ∅ 0 []) as [[[[rs m] k] l]|] eqn:E; [|done]. intros H.
  destruct (C48_variant_is_tagged_value_partial (vcfg_ok cf) _ _ _ _ _ E) as (w & Hw & _). rewrite Hw in H. injection H as H.
  exists w, m. split; [|done]. by exists os, rs, k, l.
Qed.
Definition slot {cf} (w : @world (vcfg cf)) (x : nat) : option (option (nat * nat) * nat) :=
  match objs w !! Some x with Some o => Some (v_storage o, v_type o) | None => None end.

Example C48_case :
  let os : list (@vop vgood) :=
    [VNew 0; VNewValue 1 tB (ACopy (rv 5)); VNewIndex 2 2 (AMake 1 [(1, RAlt 1); (1, RAlt 1)]); VSwap 0 1; VCopyAssign 1 2; VMoveAssign 2 0;
     VAssign 2 tB (AMove (RAlt 2)); VEmplace 0 tA (AMove (rv 7)); VEmplaceIndex 1 1 (AMake 4 [(1, RAlt 2)]); VHolds 1 tB; VHolds 1 tC; VGet 0 tA; VGet 0 tB;
     VVisit 2 inc; VGet 2 tB; VNewMove 3 2] in
  (λ p : list (@vobs vgood) * gmap nat (nat * nat) * nat * list (nat * nat), (p.1.1.1, p.1.1.2 !! 0, p.1.1.2 !! 1, p.1.1.2 !! 2, p.1.1.2 !! 3, p.2)) <$> @srun vgood os ∅ 0 [] =
  Some ([BUnit; BUnit; BUnit; BUnit; BUnit; BUnit; BUnit; bv 7; bv 19; BBool true; BBool false; bv 7; BThrew BadVariantAccess;
         BUnit; bv 6; BUnit], Some (0, 7), Some (1, 19), Some (1, 90), Some (1, 6), [(1, 5)]).
Proof. by vm_compute. Qed.
(** assignments and constructions that fail *)
Example C48_call_case : ∃ w m, @reachable (vfails [1]) w m ∧
  match @sstep (vfails [1]) (VCopyAssign 1 0) m, @vexec (vfails [1]) (VCopyAssign 1 0) w with
  | Done _ _ (Some mf), Exn ElementThrow w' => bool_decide (mf !! 1 = Some (0, 6)) && (ncopy w' =? 2) && bool_decide (slot w' 1 = Some (Some (0, 6), 0))
  | _, _ => false
  end = true.
Proof. apply (vcheck_reachable _ [VNewValue 0 tB (ACopy (rv 5)); VNewValue 1 tA (AMove (rv 6))]). by vm_compute. Qed.
Example C49_case :
  let os : list (@vop (vfails [2; 3])) := [VNewValue 0 tB (ACopy (rv 5)); VNewCopy 1 0; VNewCopy 2 0; VEmplace 0 tC (AMake 3 [(1, RAlt 0)]);
    VNewValue 4 tA (ACopy (rv 1)); VSwap 0 4; VDestroy 0; VDestroy 4; VDestroy 1] in
  match @srun (vfails [2; 3]) os ∅ 0 [] with
  | Some (rs, m, k, _) => bool_decide (map_to_list m = []) && (k =? 4) &&
      bool_decide ((λ r, match r with BThrew _ => true | _ => false end) <$> rs = [false; false; true; true; false; false; false; false; false])
  | None => false
  end = true.
Proof. by vm_compute. Qed.
Example C50_case : ∃ w m, @reachable (vfails [1]) w m ∧
  match @vexec (vfails [1]) (VAssign 0 tC (ACopy (rv 8))) w, @vexec (vfails [1]) (VEmplace 0 tC (AMake 0 [(1, RAlt 0)])) w with
  | Exn ElementThrow w1, Exn ElementThrow w2 => bool_decide (slot w1 0 = Some (Some (1, 5), 1)) && bool_decide (slot w2 0 = Some (Some (1, 5), 1))
  | _, _ => false
  end = true.
Proof. apply (vcheck_reachable _ [VNewValue 0 tB (ACopy (rv 5))]). by vm_compute. Qed.
Example C50_refuted_case : ∃ w m, @reachable (vfails [1]) w m ∧
  match m !! 0, @sarg (vfails [1]) m 2 (AMake 2 [(1, rv 3)]), @vexec (vfails [1]) (VEmplace 0 tC (AMake 2 [(1, rv 3)])) w with
  | Some (1, 5), Some _, Exn ElementThrow w1 =>
      bool_decide (slot w1 0 = Some (None, 1)) && (@paren_safe (vfails [1]) 2 (AMake 2 [])) && negb (@brace_safe (vfails [1]) 2 (AMake 2 [])) &&
      match var_destroy (Some 0) w1 with Stuck DeadObject => true | _ => false end
  | _, _, _ => false
  end = true.
Proof. apply (vcheck_reachable _ [VNewValue 0 tB (ACopy (rv 5))]). by vm_compute. Qed.
Example C51_case : ∃ w m, @reachable vgood w m ∧
  match var_holds (Some 0) tB w, var_holds (Some 0) tA w, var_get_if (Some 0) tB w, var_get_if (Some 0) tC w, var_get (Some 0) tB w, var_get (Some 0) tC w with
  | Ok true _, Ok false _, Ok (Some 1) _, Ok None _, Ok 5 _, Exn BadVariantAccess _ => true
  | _, _, _, _, _, _ => false
  end &&
  match var_holds (Some 0) (Ty true 20) w, var_visit (Some 0) inc w, var_take (Some 0) tB w with
  | Ok false _, Ok _ w1, Ok 5 w2 => bool_decide (visits w1 = [(1, 5)]) && bool_decide (slot w1 0 = Some (Some (1, 6), 1)) && bool_decide (slot w2 0 = Some (Some (1, 90), 1))
  | _, _, _ => false
  end = true.
Proof. apply (vcheck_reachable _ [VNewValue 0 tB (ACopy (rv 5))]). by vm_compute. Qed.
Definition nat_ops (i : nat) (x y : nat) : answers := answers_for (Nat.compare x y).
Lemma nat_ops_total i : ops_total (H:=nat_ops i).
Proof.
  exists Nat.lt, Nat.eq. split.
  - split; unfold Nat.lt, Nat.eq; lia.
  - intros x y. exists (Nat.compare x y). split; [done|]. destruct (Nat.compare_spec x y); done.
Qed.
Example C52_case : ∃ w m, @reachable vgood w m ∧
  let ask x y := (λ f : M (@world vgood) bool, match f w with Ok r _ => r | _ => false end) <$> @var_six vgood nat_ops x y in
  bool_decide (ask 0 1 = [true; true; false; false; false; true]) && bool_decide (ask 1 2 = [false; false; true; true; false; true]) &&
  bool_decide (ask 2 2 = [false; true; false; true; true; false]) && bool_decide (ask 0 2 = [true; true; false; false; false; true]) = true.
Proof. apply (vcheck_reachable _ [VNewValue 0 tA (ACopy (rv 9)); VNewValue 1 tB (ACopy (rv 8)); VNewValue 2 tB (ACopy (rv 5))]). by vm_compute. Qed.
Example C53_case : ∃ w m, @reachable vgood w m ∧
  match @var_emplace vgood (Some 0) tB (ACopy (RAlt 0)) w, @var_emplace vgood (Some 1) tA (ACopy (RAlt 1)) w, @var_emplace vgood (Some 0) tB (AMove (RAlt 0)) w,
        @var_assign vgood (Some 0) tB (AMove (RAlt 0)) w with
  | Ok 5 w1, Stuck DeadObject, Stuck DeadObject, Ok _ w2 => bool_decide (slot w1 0 = Some (Some (1, 5), 1)) && bool_decide (slot w2 0 = Some (Some (1, 5), 1))
  | _, _, _, _ => false
  end = true.
Proof. apply (vcheck_reachable _ [VNewValue 0 tB (ACopy (rv 5)); VNewValue 1 tA (ACopy (rv 6))]). by vm_compute. Qed.
Definition many (k : nat) : list ty := Ty false <$> seq 0 k.
Example C54_case :
  determine_index tB [tA; tB; tC] 0 = 1 ∧ determine_index tC [tA; tB] 0 = not_found ∧
  determine_index (Ty false 253) (many 254) 0 = 253 ∧ determine_index (Ty true 5) (many 254) 0 = not_found ∧
  validate_unique [tA; tB; tC] = true ∧ validate_unique [tA; tB; tA] = false ∧ validate_unique (many 254) = true ∧
  max_sizeof t_id [tA; tC; tB] 0 = 30.
Proof. by vm_compute. Qed.
(** why there is a limit: the 256th type is found at the value that means not found, the 257th
    at position 0 *)
Example C54_beyond_limit :
  determine_index (Ty false 255) (many 256) 0 = not_found ∧ determine_index (Ty false 256) (many 257) 0 = 0.
Proof. by vm_compute. Qed.

Print Assumptions C48_variant_is_tagged_value_partial.
Print Assumptions C48_variant_call_partial.
Print Assumptions C48_variant_never_valueless_partial.
Print Assumptions C49_variant_never_faults_partial.
Print Assumptions C49_variant_alive_partial.
Print Assumptions C49_variant_destroy.
Print Assumptions C49_variant_no_leak_partial.
Print Assumptions C50_variant_strong_guarantee_partial.
Print Assumptions C50_variant_assign_emplace_partial.
Print Assumptions C50_emplace_braces_refuted.
Print Assumptions C48_valueless_refuted.
Print Assumptions C49_destroy_twice_refuted.
Print Assumptions C51_variant_access_partial.
Print Assumptions C51_variant_get_rvalue.
Print Assumptions C51_variant_visit.
Print Assumptions C51_variant_write.
Print Assumptions C51_holds_const_refuted.
Print Assumptions C52_variant_comparisons.
Print Assumptions C52_tag_order_total.
Print Assumptions C52_variant_one_order.
Print Assumptions C53_emplace_own_throwing_partial.
Print Assumptions C53_emplace_own_nothrow_refuted.
Print Assumptions C53_emplace_own_rvalue_refuted.
Print Assumptions C53_assign_own.
Print Assumptions C54_determine_index.
Print Assumptions C54_validate_unique.
Print Assumptions C54_max_sizeof.
Print Assumptions C54_determine_type.
