(** The public member functions of ptl::vector, one by one. *)
From stdpp Require Import prelude gmap.
From Coq Require Import ZArith Lia.
From Verif Require Import Cpp VectorModel VectorSpec VectorMem VectorProofs VectorOps.
Local Open Scope nat_scope.

Section proofs.
Context `{C : VecCfg} (Hcfg : cfg_ok).
Notation block := (list (option V)).
Notation state := (gmap nat (list V)).
Notation heap_t := (gmap nat (list (option V))).
Implicit Types (E : exn → world → Prop).

(** ** Arguments *)
Lemma copyfunc_uninit (from : nat → src) vs h :
  (∀ k v, vs !! k = Some v → src_val h (from k) v) →
  copyfunc (λ p, uninit from p (length vs)) vs h.
Proof.
  intros Hsrc. split.
  - intros w1 b P B Hst Hb. apply uninit_run; [done|exact Hb|]. intros k v Hk. by apply Hst, Hsrc.
  - intros -> p w1. done.
Qed.
Lemma copyfunc_emplace s v h : src_val h s v → copyfunc (emplace_at (inl s)) [v] h.
Proof.
  intros Hsrc. split; [|done]. intros w1 b P B Hst Hb. cbn [emplace_at length].
  eapply run_to_bind_ok; [apply rd_src_eq, Hst, Hsrc|].
  apply run_to_bind. unfold run_to at 1, ctor. destruct (ctor_fails (nctor w1)) eqn:Hf.
  { split; [done|]. exists (nctor w1). sp; [lia|lia|done|done]. }
  cbn [length replicate app] in Hb.
  eapply run_to_eq; [eapply construct_eq; [exact Hb|by apply lookup_mid]|].
  cbn [fmap list_fmap app]. rewrite insert_mid by done.
  apply world_eq; try done. cbn. lia.
Qed.

(** Binding an argument yields a source designating its value. *)
Lemma bind_arg_eq w m a v : wf w m → sarg m a = Some v →
  ∃ s, bind_arg a w = Ok s w ∧ src_val (heap w) s v.
Proof.
  intros Hw. destruct a as [u|y i]; cbn [sarg bind_arg].
  - intros [= ->]. by exists (SVal v).
  - destruct (m !! y) as [l|] eqn:Hy; [|done]. intros Hi.
    destruct (wf_get _ _ _ _ Hw Hy) as (u & Hu & Hr).
    exists (SPtr (v_ptr u, i)). split; [erewrite bind_ok by (by apply get_vec_eq); done|].
    destruct (v_ptr u) as [b|] eqn:Hb.
    + exists (cells l (v_cap u)). split; [by eapply vrep_block|].
      rewrite cells_lookup by (by eapply lookup_lt_Some). by rewrite Hi.
    + destruct (vrep_none _ _ _ Hr Hb) as [_ ->]. done.
Qed.
Lemma bind_range_eq w m r vs : wf w m → srange m r = Some vs →
  ∃ from, bind_range r w = Ok (from, length vs) w ∧ (∀ k v, vs !! k = Some v → src_val (heap w) (from k) v) ∧
          rlen m r = length vs ∧ (Z.of_nat (length vs) < 2 ^ (Z.of_nat wbits - 1))%Z.
Proof.
  intros Hw. destruct r as [l|y i n]; cbn [srange bind_range rlen].
  - destruct (decide _) as [Hlt|]; [|done]. intros [= ->]. eexists. sp; [done| |done|done].
    intros k v Hk. cbv beta. by rewrite Hk.
  - destruct (m !! y) as [l|] eqn:Hy; [|done]. destruct (decide _) as [Hle|]; [|done]. intros [= <-].
    destruct (wf_get _ _ _ _ Hw Hy) as (u & Hu & Hr).
    assert (Hlen : length (take n (drop i l)) = n) by (rewrite take_length, drop_length; lia).
    eexists. sp.
    + erewrite bind_ok by (by apply get_vec_eq). rewrite Hlen. done.
    + intros k v Hk. cbv beta.
      pose proof (lookup_lt_Some _ _ _ Hk) as Hk'. rewrite Hlen in Hk'.
      rewrite lookup_take in Hk by lia. rewrite lookup_drop in Hk.
      destruct (v_ptr u) as [b|] eqn:Hb.
      * exists (cells l (v_cap u)). split; [by eapply vrep_block|].
        rewrite cells_lookup by (by eapply lookup_lt_Some). by rewrite Hk.
      * destruct (vrep_none _ _ _ Hr Hb) as [_ ->]. done.
    + done.
    + rewrite Hlen. pose proof (len_bound _ _ _ _ Hw Hy). pose proof (max_cap_half Hcfg). lia.
Qed.
Lemma range_countable w m x l n : wf w m → m !! x = Some l →
  (Z.of_nat n < 2 ^ (Z.of_nat wbits - 1))%Z → countable l n.
Proof.
  intros Hw Hl Hn. unfold countable. pose proof (len_bound _ _ _ _ Hw Hl). pose proof (max_cap_half Hcfg).
  assert (2 ^ Z.of_nat wbits = 2 * 2 ^ (Z.of_nat wbits - 1))%Z as ->; [|lia].
  pose proof Hcfg as (_ & ? & _). rewrite <-Z.pow_succ_r by lia. f_equal. lia.
Qed.
Lemma count1 w m x l : wf w m → m !! x = Some l → countable l 1.
Proof.
  intros Hw Hl. unfold countable. pose proof (len_bound _ _ _ _ Hw Hl). pose proof (max_cap_bound Hcfg).
  pose proof Hcfg as (_ & _ & ?). unfold min_cap in *. lia.
Qed.
Lemma fill_src (h : heap_t) s v n : src_val h s v →
  ∀ k u, replicate n v !! k = Some u → src_val h ((λ _, s) k) u.
Proof. intros H k u [-> _]%lookup_replicate. done. Qed.

(** ** assign, insert, emplace, push_back *)
Lemma assign_range_run x r vs w m l v :
  wf w m → m !! x = Some l → objs w !! x = Some v → srange m r = Some vs →
  run_to (vec_assign_range x r) w
    (λ _ w', wf w' (<[x:=vs]> m) ∧ later w w' ∧ replaced x v (length l) (length vs) w w')
    (λ e w', kept w w' ∧ why (length vs) e w w').
Proof.
  intros Hw Hl Hx Hr. destruct (bind_range_eq _ _ _ _ Hw Hr) as (from & Hb & Hsrc & _ & Hn).
  unfold vec_assign_range. eapply run_to_bind_ok; [exact Hb|]. cbn [fst snd].
  apply assign_copy_run; [done..| |].
  - by apply copyfunc_uninit.
  - by eapply range_countable.
Qed.
Lemma assign_fill_run x n a a' w m l v :
  wf w m → m !! x = Some l → objs w !! x = Some v → sarg m a = Some a' → countable l n →
  run_to (vec_assign_fill x n a) w
    (λ _ w', wf w' (<[x:=replicate n a']> m) ∧ later w w' ∧ replaced x v (length l) n w w')
    (λ e w', kept w w' ∧ why n e w w').
Proof.
  intros Hw Hl Hx Hr Hc. destruct (bind_arg_eq _ _ _ _ Hw Hr) as (s & Hb & Hsrc).
  unfold vec_assign_fill. eapply run_to_bind_ok; [exact Hb|].
  pose proof (assign_copy_run Hcfg x (λ p, uninit (λ _, s) p n) (replicate n a') w m l v Hw Hl Hx) as H.
  rewrite replicate_length in H. apply H; [|done].
  pose proof (copyfunc_uninit (λ _, s) (replicate n a') (heap w)) as H'. rewrite replicate_length in H'.
  apply H'. by apply fill_src.
Qed.
Lemma insert_range_run x off r vs w m l v :
  wf w m → m !! x = Some l → objs w !! x = Some v → off ≤ length l → srange m r = Some vs →
  run_to (vec_insert_range x off r) w
    (λ r w', r = off ∧ wf w' (<[x:=insert_at off vs l]> m) ∧ later w w' ∧ placed x v (length l) (length vs) w w')
    (λ e w', kept w w' ∧ why (grown (length l) (length vs)) e w w').
Proof.
  intros Hw Hl Hx Hoff Hr. destruct (bind_range_eq _ _ _ _ Hw Hr) as (from & Hb & Hsrc & _ & Hn).
  unfold vec_insert_range. eapply run_to_bind_ok; [exact Hb|]. cbn [fst snd].
  apply insert_copy_run; [done..| |].
  - by apply copyfunc_uninit.
  - by eapply range_countable.
Qed.
Lemma insert_fill_run x off n a a' w m l v :
  wf w m → m !! x = Some l → objs w !! x = Some v → off ≤ length l → sarg m a = Some a' → countable l n →
  run_to (vec_insert_fill x off n a) w
    (λ r w', r = off ∧ wf w' (<[x:=insert_at off (replicate n a') l]> m) ∧ later w w' ∧ placed x v (length l) n w w')
    (λ e w', kept w w' ∧ why (grown (length l) n) e w w').
Proof.
  intros Hw Hl Hx Hoff Hr Hc. destruct (bind_arg_eq _ _ _ _ Hw Hr) as (s & Hb & Hsrc).
  unfold vec_insert_fill. eapply run_to_bind_ok; [exact Hb|].
  pose proof (insert_copy_run Hcfg x off (λ p, uninit (λ _, s) p n) (replicate n a') w m l v Hw Hl Hx Hoff) as H.
  rewrite replicate_length in H. apply H; [|done].
  pose proof (copyfunc_uninit (λ _, s) (replicate n a') (heap w)) as H'. rewrite replicate_length in H'.
  apply H'. by apply fill_src.
Qed.

Lemma movefunc_emplace w m y j ly a u (self : Prop) :
  wf w m → m !! y = Some ly → objs w !! y = Some u → ly !! j = Some a → self →
  movefunc (emplace_at (inr (v_ptr u, j))) [a] u ly (<[j:=moved a]> ly) self.
Proof.
  intros Hw Hy Hu Hj Hself.
  pose proof (wf_rep _ _ _ _ _ Hw Hu Hy) as Hr.
  pose proof (lookup_lt_Some _ _ _ Hj) as Hjl.
  destruct (v_ptr u) as [by'|] eqn:Hby.
  2:{ destruct (vrep_none _ _ _ Hr Hby) as [_ ->]. done. }
  exists by'. sp; [done|by rewrite insert_length|].
  intros w1 b P B Hne He Hb. cbn [emplace_at length replicate app] in *.
  destruct (decide (by' = b)) as [<-|n].
  - destruct (He eq_refl) as [_ ->].
    erewrite bind_ok.
    2:{ eapply rd_eq; [exact Hb|]. rewrite lookup_app_l by by rewrite fmap_length.
        rewrite list_lookup_fmap, Hj. done. }
    erewrite bind_ok.
    2:{ eapply construct_eq; [exact Hb|]. by apply lookup_mid. }
    rewrite insert_mid by done.
    erewrite store_eq.
    2:{ cbn [heap hins with_heap]. rewrite lookup_insert. reflexivity. }
    2:{ rewrite lookup_app_l by by rewrite fmap_length. rewrite list_lookup_fmap, Hj. reflexivity. }
    rewrite hins_hins. rewrite insert_app_l by by rewrite fmap_length.
    by rewrite list_fmap_insert.
  - specialize (Hne n).
    erewrite bind_ok.
    2:{ eapply rd_eq; [exact Hne|]. rewrite cells_lookup by done. by rewrite Hj. }
    erewrite bind_ok.
    2:{ eapply construct_eq; [exact Hb|]. by apply lookup_mid. }
    rewrite insert_mid by done.
    erewrite store_eq.
    2:{ cbn [heap hins with_heap]. rewrite lookup_insert_ne by done. exact Hne. }
    2:{ rewrite cells_lookup by done. by rewrite Hj. }
    rewrite cells_insert by done.
    f_equal. apply world_eq; try done. cbn [heap hins with_heap]. by rewrite insert_commute.
Qed.

(** [m1] is the state with the argument already moved from *)
Definition after_arg (m : state) (a : earg) (v : V) (m1 : state) : Prop :=
  match a with
  | ECopy a => sarg m a = Some v ∧ m1 = m
  | EMove y j => ∃ ly, m !! y = Some ly ∧ ly !! j = Some v ∧ m1 = <[y:=<[j:=moved v]> ly]> m
  end.
Lemma after_arg_len m a v m1 x l1 : after_arg m a v m1 → m1 !! x = Some l1 →
  ∃ l, m !! x = Some l ∧ length l = length l1.
Proof.
  destruct a as [a|y j]; cbn [after_arg].
  - intros [_ ->]. eauto.
  - intros (ly & Hy & Hj & ->). destruct (decide (x = y)) as [->|].
    + rewrite lookup_insert. intros [= <-]. rewrite insert_length. eauto.
    + rewrite lookup_insert_ne by done. eauto.
Qed.
Lemma emplace_run' x off a a' s w m m1 l v :
  wf w m → after_arg m a a' m1 → m1 !! x = Some l → objs w !! x = Some v → off ≤ length l →
  bind_earg a w = Ok s w →
  run_to (insert_impl x off 1 (emplace_at s)) w
    (λ r w', r = off ∧ wf w' (<[x:=insert_at off [a'] l]> m1) ∧ later w w' ∧ placed x v (length l) 1 w w')
    (λ e w', kept w w' ∧ why (grown (length l) 1) e w w').
Proof.
  intros Hw Ha Hl Hx Hoff Hs.
  destruct (after_arg_len _ _ _ _ _ _ Ha Hl) as (l0 & Hl0 & Hlen).
  assert (Hc : countable l 1).
  { pose proof (count1 _ _ _ _ Hw Hl0) as Hc. unfold countable in *. by rewrite <-Hlen. }
  destruct a as [a|y j]; cbn [after_arg bind_earg] in *.
  - destruct Ha as [Ha ->]. destruct (bind_arg_eq _ _ _ _ Hw Ha) as (s' & Hb & Hsrc).
    erewrite bind_ok in Hs by done. injection Hs as <-.
    apply (insert_copy_run Hcfg x off _ [a'] w m l v Hw Hl Hx Hoff); [by apply copyfunc_emplace|done].
  - destruct Ha as (ly & Hy & Hj & ->).
    destruct (wf_get _ _ _ _ Hw Hy) as (u & Hu & Hr).
    erewrite bind_ok in Hs by (by apply get_vec_eq). injection Hs as <-.
    apply (insert_move_run Hcfg x off _ [a'] y w m ly (<[j:=moved a']> ly) u l v True); try done.
    by eapply movefunc_emplace.
Qed.
Lemma bind_earg_eq w m a a' m1 : wf w m → after_arg m a a' m1 → ∃ s, bind_earg a w = Ok s w.
Proof.
  intros Hw. destruct a as [a|y j]; cbn [after_arg bind_earg].
  - intros [Ha ->]. destruct (bind_arg_eq _ _ _ _ Hw Ha) as (s' & Hb & Hsrc).
    erewrite bind_ok by done. eauto.
  - intros (ly & Hy & Hj & ->). destruct (wf_get _ _ _ _ Hw Hy) as (u & Hu & Hr).
    erewrite bind_ok by (by apply get_vec_eq). eauto.
Qed.
Lemma emplace_run x off a a' w m m1 l v :
  wf w m → after_arg m a a' m1 → m1 !! x = Some l → objs w !! x = Some v → off ≤ length l →
  run_to (vec_emplace x off a) w
    (λ r w', r = off ∧ wf w' (<[x:=insert_at off [a'] l]> m1) ∧ later w w' ∧ placed x v (length l) 1 w w')
    (λ e w', kept w w' ∧ why (grown (length l) 1) e w w').
Proof.
  intros Hw Ha Hl Hx Hoff. destruct (bind_earg_eq _ _ _ _ _ Hw Ha) as [s Hs].
  unfold vec_emplace. eapply run_to_bind_ok; [exact Hs|]. by eapply emplace_run'.
Qed.
Lemma push_back_run x a a' w m m1 l v :
  wf w m → after_arg m a a' m1 → m1 !! x = Some l → objs w !! x = Some v →
  run_to (vec_push_back x a) w
    (λ r w', r = length l ∧ wf w' (<[x:=l ++ [a']]> m1) ∧ later w w' ∧ placed x v (length l) 1 w w')
    (λ e w', kept w w' ∧ why (grown (length l) 1) e w w').
Proof.
  intros Hw Ha Hl Hx. destruct (bind_earg_eq _ _ _ _ _ Hw Ha) as [s Hs].
  unfold vec_push_back. eapply run_to_bind_ok; [exact Hs|]. eapply run_to_bind_ok; [by apply get_vec_eq|].
  destruct (after_arg_len _ _ _ _ _ _ Ha Hl) as (l0 & Hl0 & Hlen).
  pose proof (wf_rep _ _ _ _ _ Hw Hx Hl0) as Hr. rewrite (vrep_siz _ _ _ Hr), Hlen.
  eapply run_to_mono; [by eapply emplace_run'| |done].
  intros r w' (-> & Hw' & H). split; [done|]. split; [|done].
  unfold insert_at in Hw'. rewrite firstn_all, drop_all, app_nil_r in Hw'. done.
Qed.

(** ** erase and friends *)
Definition resized (x : nat) (v : vec) (n : nat) (w w' : world) : Prop :=
  objs w' = <[x:=set_size v n]> (objs w) ∧ nextb w' = nextb w ∧ nctor w' = nctor w ∧
  nalloc w' = nalloc w ∧ nreloc w' = nreloc w.
Lemma resized_later x v n w w' : resized x v n w w' → later w w'.
Proof. intros (_ & ? & ? & ? & ?). unfold later. lia. Qed.

Lemma wf_inplace w m x v l l' b : wf w m → m !! x = Some l → objs w !! x = Some v → v_ptr v = Some b →
  length l' ≤ v_cap v →
  wf (with_objs (<[x:=set_size v (length l')]> (objs w)) (hins b (cells l' (v_cap v)) w)) (<[x:=l']> m).
Proof.
  intros Hw Hl Hx Hb Hle. split.
  - by apply (inv_inplace _ _ _ x v l l' b (proj1 Hw)).
  - cbn [heap nextb with_objs hins with_heap]. intros k c.
    destruct (decide (k = b)) as [->|]; [|rewrite lookup_insert_ne by done; apply (proj2 Hw)].
    intros _. eapply (proj2 Hw). eapply vrep_block; [|exact Hb]. by eapply wf_rep.
Qed.
Lemma set_size_id (h : heap_t) v (l : list V) : vrep h v l → set_size v (length l) = v.
Proof.
  intros Hr. pose proof (vrep_siz _ _ _ Hr) as Hs. destruct v as [d p c n]. unfold set_size.
  cbn [v_dealloc v_ptr v_cap v_siz] in *. congruence.
Qed.
Lemma with_objs_id w x v : objs w !! x = Some v → with_objs (<[x:=v]> (objs w)) w = w.
Proof. intros H. apply world_eq; try done. cbn [objs with_objs]. by rewrite insert_id. Qed.

Lemma erase_run x i j w m l v E :
  wf w m → m !! x = Some l → objs w !! x = Some v → i ≤ j → j ≤ length l →
  run_to (vec_erase x i j) w
    (λ r w', r = i ∧
       wf w' (<[x:=take i l ++ (if decide (i = j) then selfmove <$> drop j l else drop j l)]> m) ∧
       resized x v (length l - (j - i)) w w') E.
Proof.
  intros Hw Hl Hx Hij Hj.
  pose proof (wf_rep _ _ _ _ _ Hw Hx Hl) as Hr. pose proof (vrep_siz _ _ _ Hr) as Hs.
  pose proof (vrep_le _ _ _ Hr) as Hle.
  unfold vec_erase. eapply run_to_bind_ok; [by apply get_vec_eq|]. rewrite Hs.
  destruct (v_ptr v) as [b|] eqn:Hb.
  2:{ destruct (vrep_none _ _ _ Hr Hb) as [-> ->]. cbn [length] in *.
      assert (i = 0 ∧ j = 0) as [-> ->] by lia.
      eapply run_to_bind_ok; [done|]. eapply run_to_bind_ok; [done|].
      unfold put_vec. eapply run_to_bind_ok; [done|]. apply run_to_ret.
      sp; [done| |].
      - cbn [Nat.sub]. change (set_size null_vec 0) with null_vec. rewrite with_objs_id by done.
        rewrite decide_True by done. cbn [take drop fmap list_fmap app]. by rewrite insert_id.
      - unfold resized. sp; done. }
  pose proof (vrep_block _ _ _ _ Hr Hb) as Hh.
  set (r := replicate (v_cap v - length l) (@None V)).
  destruct (decide (i = j)) as [<-|Hne].
  - rewrite Nat.sub_diag, Nat.sub_0_r.
    eapply run_to_bind_ok.
    { rewrite <-(drop_length l i).
      apply (self_move_range_eq (drop i l) w b (Some <$> take i l) r).
      - rewrite fmap_length, take_length. lia.
      - rewrite Hh. unfold cells, r. rewrite app_assoc, <-fmap_app, take_drop. done. }
    eapply run_to_bind_ok; [done|]. unfold put_vec. eapply run_to_bind_ok; [done|]. apply run_to_ret.
    sp; [done| |].
    + pose proof (wf_inplace w m x v l (take i l ++ (selfmove <$> drop i l)) b Hw Hl Hx Hb) as H.
      assert (Hlen : length (take i l ++ (selfmove <$> drop i l)) = length l).
      { rewrite app_length, fmap_length, take_length, drop_length. lia. }
      rewrite Hlen in H. unfold cells in H. rewrite Hlen in H.
      rewrite fmap_app, <-app_assoc in H. apply H. done.
    + unfold resized. cbn [objs nextb nctor nalloc nreloc with_objs hins with_heap]. sp; done.
  - destruct (move_range_eq (drop j l) w b (Some <$> take i l) (take (j - i) (drop i l)) r i j)
      as (junk & Hjunk & Heq).
    { intros H. apply (f_equal length) in H. rewrite take_length, drop_length in H. cbn in H. lia. }
    { rewrite fmap_length, take_length. lia. }
    { rewrite fmap_length, !take_length, drop_length. lia. }
    { rewrite Hh. unfold cells, r. rewrite !app_assoc, <-!fmap_app. do 3 f_equal.
      rewrite <-(take_drop i l) at 1. rewrite <-app_assoc. f_equal.
      rewrite <-(take_drop (j - i) (drop i l)) at 1. f_equal. rewrite drop_drop. f_equal. lia. }
    assert (Hjl : length junk = j - i) by (rewrite Hjunk, take_length, drop_length; lia).
    eapply run_to_bind_ok; [rewrite <-(drop_length l j); exact Heq|].
    eapply run_to_bind_ok.
    { rewrite <-Hjl.
      apply (destroy_n_eq junk _ b ((Some <$> take i l) ++ (Some <$> drop j l)) r).
      - rewrite app_length, !fmap_length, take_length, drop_length. lia.
      - rewrite heap_hins, lookup_insert. by rewrite <-app_assoc. }
    rewrite hins_hins. unfold put_vec. eapply run_to_bind_ok; [done|]. apply run_to_ret.
    sp; [done| |].
    + pose proof (wf_inplace w m x v l (take i l ++ drop j l) b Hw Hl Hx Hb) as H.
      assert (Hlen : length (take i l ++ drop j l) = length l - (j - i)).
      { rewrite app_length, take_length, drop_length. lia. }
      rewrite Hlen in H. unfold cells in H. rewrite Hlen in H.
      assert (Hc : ((Some <$> take i l) ++ (Some <$> drop j l)) ++ replicate (length junk) None ++ r =
                   (Some <$> take i l ++ drop j l) ++ replicate (v_cap v - (length l - (j - i))) None).
      { rewrite fmap_app. f_equal. unfold r. rewrite <-replicate_add. f_equal. lia. }
      rewrite Hc. apply H. lia.
    + unfold resized. cbn [objs nextb nctor nalloc nreloc with_objs hins with_heap]. sp; done.
Qed.

Lemma clear_run x w m l v E :
  wf w m → m !! x = Some l → objs w !! x = Some v →
  run_to (vec_clear x) w (λ _ w', wf w' (<[x:=[]]> m) ∧ resized x v 0 w w') E.
Proof.
  intros Hw Hl Hx.
  pose proof (wf_rep _ _ _ _ _ Hw Hx Hl) as Hr. pose proof (vrep_siz _ _ _ Hr) as Hs.
  pose proof (vrep_le _ _ _ Hr) as Hle.
  unfold vec_clear. eapply run_to_bind_ok; [by apply get_vec_eq|]. rewrite Hs.
  destruct (v_ptr v) as [b|] eqn:Hb.
  - pose proof (vrep_block _ _ _ _ Hr Hb) as Hh.
    eapply run_to_bind_ok.
    { apply (destroy_n_eq l w b [] (replicate (v_cap v - length l) None)); [done|exact Hh]. }
    unfold put_vec. eapply run_to_eq; [done|]. split.
    + pose proof (wf_inplace w m x v l [] b Hw Hl Hx Hb) as H. rewrite cells_nil in H.
      cbn [app]. rewrite <-replicate_add. replace (length l + (v_cap v - length l)) with (v_cap v) by lia.
      apply H. cbn. lia.
    + unfold resized. cbn [objs nextb nctor nalloc nreloc with_objs hins with_heap]. sp; done.
  - destruct (vrep_none _ _ _ Hr Hb) as [-> ->]. eapply run_to_bind_ok; [done|].
    unfold put_vec. eapply run_to_eq; [done|]. split.
    + change (set_size null_vec 0) with null_vec. rewrite with_objs_id by done. by rewrite insert_id.
    + unfold resized. sp; done.
Qed.

Lemma pop_back_run x w m l v E :
  wf w m → m !! x = Some l → objs w !! x = Some v → l ≠ [] →
  run_to (vec_pop_back x) w
    (λ _ w', wf w' (<[x:=take (length l - 1) l]> m) ∧ resized x v (length l - 1) w w') E.
Proof.
  intros Hw Hl Hx Hne.
  pose proof (wf_rep _ _ _ _ _ Hw Hx Hl) as Hr. pose proof (vrep_siz _ _ _ Hr) as Hs.
  pose proof (vrep_le _ _ _ Hr) as Hle.
  unfold vec_pop_back. eapply run_to_bind_ok; [by apply get_vec_eq|].
  unfold put_vec. eapply run_to_bind_ok; [done|].
  destruct (v_ptr v) as [b|] eqn:Hb.
  2:{ destruct (vrep_none _ _ _ Hr Hb) as [-> ->]. done. }
  cbn [set_size v_ptr v_siz]. rewrite Hs, Hb.
  pose proof (vrep_block _ _ _ _ Hr Hb) as Hh.
  destruct (exists_last Hne) as (l0 & a & ->).
  rewrite app_length in *. cbn [length] in *. rewrite Nat.add_sub in *.
  rewrite (take_app_alt l0) by done.
  assert (Hcell : cells (l0 ++ [a]) (v_cap v) = (Some <$> l0) ++ Some a :: replicate (v_cap v - length l0 - 1) None).
  { rewrite (cells_app l0 [a]) by (cbn; lia). done. }
  eapply run_to_eq.
  { eapply (destroy_eq _ b (length l0)); [exact Hh|]. rewrite Hcell. apply lookup_mid. by rewrite fmap_length. }
  split.
  - pose proof (wf_inplace w m x v (l0 ++ [a]) l0 b Hw Hl Hx Hb) as H.
    rewrite Hcell, insert_mid by by rewrite fmap_length.
    assert (Hc : (Some <$> l0) ++ None :: replicate (v_cap v - length l0 - 1) None = cells l0 (v_cap v)).
    { unfold cells. f_equal. change (None :: ?r) with (replicate 1 None ++ r). rewrite <-replicate_add. f_equal. lia. }
    rewrite Hc. apply H. lia.
  - unfold resized. cbn [objs nextb nctor nalloc nreloc with_objs hins with_heap]. sp; done.
Qed.
End proofs.
