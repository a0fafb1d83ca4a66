(** Lemmas for C104. *)
From stdpp Require Import prelude gmap.
From Coq Require Import ZArith Lia.
From Verif Require Import Cpp VectorModel VectorSpec VectorMem VectorProofs VectorOps VectorOps2 VectorOps3
  VectorHistory VectorExtra VectorCostSpec.
Local Open Scope nat_scope.

Section cost.
Context `{C : VecCfg} (Hcfg : cfg_ok).
Notation state := (gmap nat (list V)).

(** started in [w], [p] constructs exactly [c] elements, or at most if it throws, and allocates and relocates
    at most [a] and [r] times *)
Definition spends (w : world) {A} (t : res world A) (c a r : nat) : Prop :=
  match t with
  | Ok _ w' => nctor w' = nctor w + c ∧ nalloc w' ≤ nalloc w + a ∧ nreloc w' ≤ nreloc w + r
  | Exn _ w' => nctor w' ≤ nctor w + c ∧ nalloc w' ≤ nalloc w + a ∧ nreloc w' ≤ nreloc w + r
  | _ => True
  end.
Definition costs {A} (p : M world A) (w : world) (c a r : nat) : Prop := spends w (p w) c a r.
Definition gratis {A} (p : M world A) : Prop := ∀ w, costs p w 0 0 0.

Lemma costs_bind {A B} (p : M world A) (k : A → M world B) w c a r c' a' r' :
  costs p w c a r → (∀ x w', p w = Ok x w' → costs (k x) w' c' a' r') → costs (bind p k) w (c + c') (a + a') (r + r').
Proof.
  unfold costs, spends, bind. intros H K. destruct (p w) as [x w'|e w'|f|]; [|lia|done|done].
  specialize (K x w' eq_refl). destruct (k x w'); try done; lia.
Qed.
Lemma costs_mono {A} (p : M world A) w c a r c' a' r' : costs p w c a r → c = c' → a ≤ a' → r ≤ r' → costs p w c' a' r'.
Proof. unfold costs, spends. intros H -> ??. destruct (p w); try done; lia. Qed.
Lemma costs_first {A B} (p : M world A) (k : A → M world B) w c a r :
  gratis p → (∀ x w', p w = Ok x w' → costs (k x) w' c a r) → costs (bind p k) w c a r.
Proof. intros G K. apply (costs_bind p k w 0 0 0 c a r); [apply G|exact K]. Qed.
Lemma costs_last {A B} (p : M world A) (k : A → M world B) w c a r :
  costs p w c a r → (∀ x, gratis (k x)) → costs (bind p k) w c a r.
Proof. intros H K. eapply costs_mono; [eapply costs_bind; [exact H|intros x w' _; apply K]|lia..]. Qed.
Lemma costs_on_exn {A} (p : M world A) (h : M world unit) w c a r : costs p w c a r → gratis h → costs (on_exn p h) w c a r.
Proof.
  unfold costs, spends, on_exn. intros H G. destruct (p w) as [x w'|e w'|f|]; try done.
  specialize (G w'). unfold costs, spends in G. destruct (h w'); try done; lia.
Qed.
Lemma costs_seq {A B} (p : M world A) (k : A → M world B) w c1 a1 r1 c2 a2 r2 c a r :
  costs p w c1 a1 r1 → (∀ x w', p w = Ok x w' → costs (k x) w' c2 a2 r2) →
  c1 + c2 = c → a1 + a2 ≤ a → r1 + r2 ≤ r → costs (bind p k) w c a r.
Proof. intros H K ???. eapply costs_mono; [by eapply costs_bind|done..]. Qed.
Lemma costs_noexcept {A} (p : M world A) w c a r : costs p w c a r → costs (noexcept p) w c a r.
Proof. unfold costs, spends, noexcept. by destruct (p w). Qed.
Lemma gratis_bind {A B} (p : M world A) (k : A → M world B) : gratis p → (∀ x, gratis (k x)) → gratis (bind p k).
Proof. intros G K w. apply costs_first; [done|]. intros x w' _. apply K. Qed.
Lemma gratis_on_exn {A} (p : M world A) (h : M world unit) : gratis p → gratis h → gratis (on_exn p h).
Proof. intros G K w. by apply costs_on_exn. Qed.
Lemma gratis_ret {A} (a : A) : gratis (ret a).
Proof. intros w. unfold costs, spends, ret. lia. Qed.
Lemma gratis_stuck {A} f : gratis (stuck f : M world A).
Proof. done. Qed.
Lemma gratis_throw {A} e : gratis (throw e : M world A).
Proof. intros w. unfold costs, spends, throw. lia. Qed.
Ltac prim := intros w; unfold costs, spends; repeat case_match; try done; simplify_eq; cbn [nctor nalloc nreloc with_objs with_heap]; lia.
Lemma gratis_get_block q : gratis (get_block q).
Proof. unfold get_block. prim. Qed.
Lemma gratis_put_block b c : gratis (put_block b c).
Proof. unfold put_block. prim. Qed.
Lemma gratis_get_vec x : gratis (get_vec x).
Proof. unfold get_vec. prim. Qed.
Lemma gratis_put_vec x v : gratis (put_vec x v).
Proof. unfold put_vec. prim. Qed.
Lemma gratis_del_vec x : gratis (del_vec x).
Proof. unfold del_vec. prim. Qed.
Lemma gratis_temp_name : gratis temp_name.
Proof. unfold temp_name. prim. Qed.
Lemma gratis_this_module : gratis this_module.
Proof. unfold this_module. prim. Qed.
Lemma gratis_free m p : gratis (free m p).
Proof. unfold free. destruct p; [|apply gratis_ret]. prim. Qed.
Ltac elem := apply gratis_bind; [apply gratis_get_block|]; intros [b c]; cbn [fst snd];
  match goal with |- gratis (match ?x with _ => _ end) => destruct x as [[?|]|] end;
  solve [apply gratis_stuck | apply gratis_ret | apply gratis_put_block].
Lemma gratis_rd q : gratis (rd q).
Proof. unfold rd. elem. Qed.
Lemma gratis_construct q v : gratis (construct q v).
Proof. unfold construct. elem. Qed.
Lemma gratis_destroy q : gratis (destroy q).
Proof. unfold destroy. elem. Qed.
Lemma gratis_store q v : gratis (store q v).
Proof. unfold store. elem. Qed.
Lemma gratis_destroy_n n : ∀ q, gratis (destroy_n q n).
Proof. induction n; intros q; [apply gratis_ret|]. apply gratis_bind; [apply gratis_destroy|done]. Qed.
Lemma gratis_rd_src s : gratis (rd_src s).
Proof. destruct s; [apply gratis_ret|apply gratis_rd]. Qed.
Lemma gratis_rotate p a b c : gratis (rotate p a b c).
Proof.
  unfold rotate. case_match; [apply gratis_ret|]. apply gratis_bind; [apply gratis_get_block|]. intros [].
  repeat case_match; solve [apply gratis_stuck | apply gratis_put_block].
Qed.
Lemma gratis_move_range n : ∀ s d, gratis (move_range s n d).
Proof.
  induction n; intros s d; [apply gratis_ret|]. cbn [move_range]. apply gratis_bind; [|done]. unfold move_assign_elem.
  apply gratis_bind; [apply gratis_rd|]. intros v. case_decide; [apply gratis_store|].
  apply gratis_bind; [apply gratis_store|]. intros _. apply gratis_store.
Qed.
Lemma gratis_uninit_move_from n : ∀ s d, gratis (uninit_move_from s d n).
Proof.
  induction n; intros s d; [apply gratis_ret|]. cbn [uninit_move_from]. apply gratis_bind; [apply gratis_rd|]. intros v.
  apply gratis_bind; [apply gratis_construct|]. intros _. apply gratis_bind; [apply gratis_store|]. done.
Qed.
Lemma costs_ctor w : costs ctor w 1 0 0.
Proof. unfold costs, spends, ctor. destruct (ctor_fails (nctor w)); cbn [nctor nalloc nreloc]; lia. Qed.
Lemma costs_relocated w : costs relocated w 0 0 1.
Proof. unfold costs, spends, relocated. cbn [nctor nalloc nreloc]. lia. Qed.
Lemma costs_calloc n w : costs (calloc n) w 0 1 0.
Proof. unfold costs, spends, calloc. destruct (alloc_fails (nalloc w)); cbn [nctor nalloc nreloc]; lia. Qed.
Lemma costs_uninit_loop from p n : ∀ k w, costs (uninit_loop from p k n) w n 0 0.
Proof.
  induction n as [|n IH]; intros k w; [apply gratis_ret|]. cbn [uninit_loop]. apply (costs_seq _ _ w 1 0 0 n 0 0); [| |lia..].
  - apply costs_on_exn; [|apply gratis_destroy_n]. apply costs_first; [apply gratis_rd_src|]. intros v w' _.
    apply costs_last; [apply costs_ctor|]. intros _. apply gratis_construct.
  - intros _ w' _. apply IH.
Qed.
Lemma costs_uninit from p n w : costs (uninit from p n) w n 0 0.
Proof. apply costs_uninit_loop. Qed.
Lemma costs_uninit_move_n n : ∀ s d w, costs (uninit_move_n s n d) w 0 0 n.
Proof.
  induction n as [|n IH]; intros s d w; [apply gratis_ret|]. cbn [uninit_move_n].
  apply costs_first; [apply gratis_rd|]. intros v w1 _. apply costs_first; [apply gratis_construct|]. intros _ w2 _.
  apply costs_first; [apply gratis_store|]. intros _ w3 _. apply (costs_bind _ _ w3 0 0 1 0 0 n); [apply costs_relocated|]. intros _ w4 _. apply IH.
Qed.
Lemma costs_emplace_at s p w : costs (emplace_at s p) w (match s with inl _ => 1 | inr _ => 0 end) 0 0.
Proof.
  destruct s as [s|q]; cbn [emplace_at].
  - apply costs_first; [apply gratis_rd_src|]. intros v w' _. apply costs_last; [apply costs_ctor|]. intros _. apply gratis_construct.
  - revert w. apply gratis_bind; [apply gratis_rd|]. intros v. apply gratis_bind; [apply gratis_construct|]. intros _. apply gratis_store.
Qed.

(** ** storage_t *)
Lemma costs_storage_new n w : costs (storage_new n) w 0 1 0.
Proof.
  unfold storage_new. case_match; [eapply costs_mono; [apply gratis_ret|lia..]|].
  case_match; [eapply costs_mono; [apply gratis_throw|lia..]|].
  apply costs_first; [apply gratis_this_module|]. intros m w' _. apply costs_last; [apply costs_calloc|].
  intros [b|]; [apply gratis_ret|apply gratis_throw].
Qed.
Lemma gratis_storage_dtor v : gratis (storage_dtor v).
Proof.
  unfold storage_dtor. case_match; [|apply gratis_ret]. apply gratis_bind; [apply gratis_destroy_n|]. intros _. apply gratis_free.
Qed.
Lemma gratis_storage_take x v : gratis (storage_take x v).
Proof.
  unfold storage_take. apply gratis_bind; [apply gratis_get_vec|]. intros u. apply gratis_bind.
  - case_match; [|apply gratis_ret]. apply gratis_bind; [apply gratis_destroy_n|]. intros _. apply gratis_free.
  - intros _. apply gratis_bind; [apply gratis_put_vec|]. intros _. apply gratis_ret.
Qed.
Lemma gratis_commit x v : gratis (commit x v).
Proof. unfold commit. apply gratis_bind; [apply gratis_storage_take|]. intros u. apply gratis_storage_dtor. Qed.

(** ** Functions *)
Lemma costs_at {A} x w v (k : vec → M world A) c a r : objs w !! x = Some v → costs (k v) w c a r → costs (bind (get_vec x) k) w c a r.
Proof. intros E H. unfold costs, bind, get_vec in *. by rewrite E. Qed.
Lemma costs_assign_impl x n func w c : (∀ p w', costs (func p) w' c 0 0) → costs (assign_impl x n func) w c 1 0.
Proof.
  intros F. unfold assign_impl. apply costs_first; [apply gratis_get_vec|]. intros v w1 _. case_match.
  - apply (costs_mono _ _ c 0 0); [|lia..]. apply costs_last; [apply F|]. intros _.
    apply gratis_bind; [apply gratis_rotate|]. intros _. apply gratis_bind; [apply gratis_destroy_n|]. intros _. apply gratis_put_vec.
  - apply (costs_seq _ _ _ 0 1 0 c 0 0); [apply costs_storage_new| |lia..]. intros tmp w2 _.
    apply costs_last; [apply costs_on_exn; [apply F|apply gratis_storage_dtor]|]. intros _. apply gratis_commit.
Qed.
Lemma costs_insert_impl x off n func w v c : objs w !! x = Some v → off ≤ v_siz v → (∀ p w', costs (func p) w' c 0 0) →
  costs (insert_impl x off n func) w c 1 (v_siz v).
Proof.
  intros E O F. unfold insert_impl. apply (costs_at _ _ _ _ _ _ _ E). apply costs_last; [|intros _; apply gratis_ret]. case_match.
  - apply (costs_mono _ _ c 0 0); [|lia..]. apply costs_last; [apply F|]. intros _. apply gratis_bind; [apply gratis_rotate|]. intros _. apply gratis_put_vec.
  - apply (costs_seq _ _ _ 0 1 0 c 0 (v_siz v)); [apply costs_storage_new| |lia..]. intros tmp w2 _.
    apply (costs_seq _ _ _ c 0 0 0 0 (v_siz v)); [apply costs_on_exn; [apply F|apply gratis_storage_dtor]| |lia..]. intros _ w3 _.
    apply (costs_seq _ _ _ 0 0 off 0 0 (v_siz v - off)); [apply costs_uninit_move_n| |lia..]. intros _ w4 _.
    apply costs_last; [apply costs_uninit_move_n|]. intros _. apply gratis_commit.
Qed.
Lemma gratis_erase x i j : gratis (vec_erase x i j).
Proof.
  unfold vec_erase. apply gratis_bind; [apply gratis_get_vec|]. intros v. apply gratis_bind; [apply gratis_move_range|]. intros _.
  apply gratis_bind; [apply gratis_destroy_n|]. intros _. apply gratis_bind; [apply gratis_put_vec|]. intros _. apply gratis_ret.
Qed.
Lemma costs_resize_impl x n func w v : objs w !! x = Some v → (∀ p k w', costs (func p k) w' k 0 0) →
  costs (resize_impl x n func) w (n - v_siz v) 1 (v_siz v).
Proof.
  intros E F. unfold resize_impl. apply (costs_at _ _ _ _ _ _ _ E). case_match eqn:D1; [|case_match eqn:D2].
  - apply Nat.eqb_eq in D1. eapply costs_mono; [apply gratis_ret|lia..].
  - apply Nat.ltb_lt in D2. apply (costs_mono _ _ 0 0 0); [|lia..].
    apply gratis_bind; [apply gratis_erase|]. intros _. apply gratis_ret.
  - apply Nat.ltb_ge in D2. apply (costs_seq _ _ _ 0 1 0 (n - v_siz v) 0 (v_siz v)); [apply costs_storage_new| |lia..]. intros tmp w2 _.
    apply (costs_seq _ _ _ (n - v_siz v) 0 0 0 0 (v_siz v)); [apply costs_on_exn; [apply F|apply gratis_storage_dtor]| |lia..]. intros _ w3 _.
    apply costs_last; [apply costs_uninit_move_n|]. intros _. apply gratis_commit.
Qed.
Lemma gratis_bind_arg a : gratis (bind_arg a).
Proof. destruct a; cbn [bind_arg]; [apply gratis_ret|]. apply gratis_bind; [apply gratis_get_vec|]. intros. apply gratis_ret. Qed.
Lemma gratis_bind_range r : gratis (bind_range r).
Proof. destruct r; cbn [bind_range]; [apply gratis_ret|]. apply gratis_bind; [apply gratis_get_vec|]. intros. apply gratis_ret. Qed.
Lemma gratis_bind_earg a : gratis (bind_earg a).
Proof.
  destruct a; cbn [bind_earg].
  - apply gratis_bind; [apply gratis_bind_arg|]. intros. apply gratis_ret.
  - apply gratis_bind; [apply gratis_get_vec|]. intros. apply gratis_ret.
Qed.
(** arguments are formed without effect *)
Lemma bind_arg_same a w s w' : bind_arg a w = Ok s w' → w' = w.
Proof. destruct a; cbn [bind_arg]; unfold bind, get_vec, ret; [naive_solver|]. destruct (objs w !! y); naive_solver. Qed.
Lemma bind_range_same m r w s w' : bind_range r w = Ok s w' → w' = w ∧ s.2 = rlen m r.
Proof. destruct r; cbn [bind_range rlen]; unfold bind, get_vec, ret; [naive_solver|]. destruct (objs w !! y); naive_solver. Qed.
Lemma bind_earg_same a w s w' : bind_earg a w = Ok s w' → w' = w ∧ match s with inl _ => 1 | inr _ => 0 end = earg_copies a.
Proof.
  destruct a; cbn [bind_earg earg_copies]; unfold bind, ret.
  - destruct (bind_arg a w) eqn:E; try done. apply bind_arg_same in E. naive_solver.
  - unfold get_vec. destruct (objs w !! y); naive_solver.
Qed.
Lemma costs_assign_range m x r w : costs (vec_assign_range x r) w (rlen m r) 1 0.
Proof.
  unfold vec_assign_range. apply costs_first; [apply gratis_bind_range|]. intros s w' E. apply (bind_range_same m) in E as [-> <-].
  apply costs_assign_impl. intros p w1. apply costs_uninit.
Qed.
Lemma costs_push_back x a w v : objs w !! x = Some v → costs (vec_push_back x a) w (earg_copies a) 1 (v_siz v).
Proof.
  intros E. unfold vec_push_back. apply costs_first; [apply gratis_bind_earg|]. intros s w' D. apply bind_earg_same in D as [-> <-].
  apply (costs_at _ _ _ _ _ _ _ E). apply costs_insert_impl; [done|done|]. intros p w1. apply costs_emplace_at.
Qed.
Lemma gratis_destroy_vec x : gratis (vec_destroy x).
Proof.
  unfold vec_destroy. apply gratis_bind; [apply gratis_get_vec|]. intros v. apply gratis_bind; [apply gratis_storage_dtor|]. intros _. apply gratis_del_vec.
Qed.
Lemma gratis_move_assign x y : gratis (vec_move_assign x y).
Proof.
  unfold vec_move_assign. case_decide.
  - apply gratis_bind; [apply gratis_get_vec|]. intros _. apply gratis_ret.
  - apply gratis_bind; [apply gratis_get_vec|]. intros b. apply gratis_bind; [apply gratis_storage_take|]. intros c. apply gratis_put_vec.
Qed.
(** the body of a constructor starts with an empty vector *)
Lemma costs_construct_vec x body w c a r : costs body (with_objs (<[x:=null_vec]> (objs w)) w) c a r → costs (construct_vec x body) w c a r.
Proof.
  intros H. unfold construct_vec. apply costs_first; [apply gratis_put_vec|]. intros u w' Hp. unfold put_vec in Hp. injection Hp as _ Hp. rewrite <-Hp. apply costs_on_exn; [exact H|apply gratis_destroy_vec].
Qed.

(** ** Ranges of unknown length *)
Lemma log2_double k n : 10 * 2 ^ k < n → k + 2 ≤ Nat.log2 n.
Proof.
  intros H. apply Nat.log2_le_pow2; [lia|]. rewrite Nat.pow_add_r. cbn [Nat.pow]. lia.
Qed.
Lemma push_all_costs x vs : ∀ w m l v A0 k R0 R,
  wf w m → m !! x = Some l → objs w !! x = Some v →
  nalloc w = A0 + k → k ≤ Nat.log2 (length l + 1) → (k = 0 ∨ 10 * 2 ^ (k - 1) ≤ v_cap v) →
  nreloc w = R0 + R → R ≤ v_cap v → (R = 0 ∨ v_cap v ≤ 2 * length l) →
  match push_all x vs w with
  | Ok _ w' => nctor w' = nctor w + length vs ∧ nalloc w' ≤ A0 + (1 + Nat.log2 (length l + length vs)) ∧ nreloc w' ≤ R0 + 2 * (length l + length vs)
  | Exn _ w' => nctor w' ≤ nctor w + length vs ∧ nalloc w' ≤ A0 + (1 + Nat.log2 (length l + length vs)) ∧ nreloc w' ≤ R0 + 2 * (length l + length vs)
  | _ => True
  end.
Proof.
  induction vs as [|u vs IH]; intros w m l v A0 k R0 R Hw Hl Hx HA Hk Hkc HR Hr1 Hr2; cbn [push_all length].
  { unfold ret. rewrite !Nat.add_0_r. pose proof (Nat.log2_succ_le (length l)). rewrite Nat.add_1_r in Hk. lia. }
  pose proof (push_back_run Hcfg x (ECopy (CVal u)) u w m m l v Hw (conj eq_refl eq_refl) Hl Hx) as Hrun.
  pose proof (costs_push_back x (ECopy (CVal u)) w v Hx) as Hc.
  pose proof (wf_rep _ _ _ _ _ Hw Hx Hl) as Hrep. pose proof (vrep_le _ _ _ Hrep) as Hle.
  assert (Hcap : v_cap v = 0 ∨ 10 ≤ v_cap v).
  { unfold vrep, min_cap in Hrep. destruct (v_ptr v); [right; lia|]. destruct Hrep as [-> _]. by left. }
  assert (Nat.log2 (length l + 1) ≤ Nat.log2 (length l + S (length vs))) as Hlog by (apply Nat.log2_le_mono; lia).
  unfold bind. unfold costs, spends in Hc. unfold run_to in Hrun. cbn [earg_copies] in Hc.
  destruct (vec_push_back x (ECopy (CVal u)) w) as [r w1|e w1|f|]; [| |done|done].
  - destruct Hrun as (_ & Hw1 & _ & Hp). destruct Hc as (Hc1 & Hc2 & Hc3).
    assert (∃ v1 k1 R1, objs w1 !! x = Some v1 ∧ nalloc w1 = A0 + k1 ∧ k1 ≤ Nat.log2 (length (l ++ [u]) + 1) ∧ (k1 = 0 ∨ 10 * 2 ^ (k1 - 1) ≤ v_cap v1) ∧
      nreloc w1 = R0 + R1 ∧ R1 ≤ v_cap v1 ∧ (R1 = 0 ∨ v_cap v1 ≤ 2 * length (l ++ [u]))) as (v1 & k1 & R1 & Hx1 & Ha1 & Hk1 & Hkc1 & HR1 & Hr3 & Hr4).
    { rewrite app_length. cbn [length].
      assert (Nat.log2 (length l + 1) ≤ Nat.log2 (length l + 1 + 1)) as Hlog1 by (apply Nat.log2_le_mono; lia).
      destruct Hp as [(Hf & Ho & Ha & Hn)|(Hf & Ho & Ha & Hn)].
      - exists (set_size v (length l + 1)), k, R. rewrite Ho, lookup_insert. cbn [v_cap set_size]. split_and!; try done; lia.
      - eexists _, (S k), (R + length l). rewrite Ho, lookup_insert. split; [done|]. cbn [v_cap]. unfold min_cap, grown. rewrite Nat.sub_succ, Nat.sub_0_r.
        destruct k as [|k'].
        + assert (Nat.log2 2 ≤ Nat.log2 (length l + 1 + 1)) as H2 by (apply Nat.log2_le_mono; lia). change (Nat.log2 2) with 1 in H2.
          cbn [Nat.pow]. split_and!; lia.
        + destruct Hkc as [|Hkc]; [lia|]. rewrite Nat.sub_succ, Nat.sub_0_r in Hkc.
          assert (10 * 2 ^ k' < length l + 1) as Hd by lia. pose proof (log2_double _ _ Hd). rewrite Nat.pow_succ_r'. split_and!; lia. }
    specialize (IH w1 (<[x:=l ++ [u]]> m) (l ++ [u]) v1 A0 k1 R0 R1 Hw1 (lookup_insert _ _ _) Hx1 Ha1 Hk1 Hkc1 HR1 Hr3 Hr4).
    rewrite app_length in IH. cbn [length] in IH. replace (length l + S (length vs)) with (length l + 1 + length vs) by lia.
    destruct (push_all x vs w1); [lia|lia|done|done].
  - destruct Hrun as ((_ & _ & _ & Hn) & _). destruct Hc as (Hc1 & Hc2 & Hc3). lia.
Qed.

Lemma costs_new_input x l w m : wf w m → m !! x = None → costs (vec_new_input x l) w (length l) (1 + Nat.log2 (length l)) (2 * length l).
Proof.
  intros Hw Hx. unfold vec_new_input. apply costs_construct_vec.
  pose proof (push_all_costs x l (with_objs (<[x:=null_vec]> (objs w)) w) (<[x:=[]]> m) [] null_vec (nalloc w) 0 (nreloc w) 0) as H.
  cbn [length nctor nalloc nreloc with_objs objs Nat.add] in H. unfold costs, spends. cbn [nctor nalloc nreloc with_objs].
  assert (H' := H (wf_new _ _ _ Hw Hx) (lookup_insert _ _ _) (lookup_insert _ _ _)). clear H.
  destruct (push_all x l _); try done; apply H'; lia || (by left) || (cbn; lia).
Qed.
(** the temporary that holds the elements of a range of unknown length *)
Lemma costs_temp {A} x l w m k c a r : wf w m → m !! x = None →
  (∀ w' v', wf w' (<[x:=l]> m) → objs w' = <[x:=v']> (objs w) → costs (k tt : M world A) w' c a r) →
  costs (bind (vec_new_input x l) k) w (length l + c) (1 + Nat.log2 (length l) + a) (2 * length l + r).
Proof.
  intros Hw Hx K. apply costs_bind; [by apply costs_new_input with m|]. intros [] w' E.
  pose proof (new_input_run Hcfg x l w m Hw Hx) as H. unfold run_to in H. rewrite E in H. destruct H as (Hw' & _ & v' & Ho). by apply (K w' v').
Qed.
Lemma costs_obs_unit p w c a r : costs p w c a r → costs (obs_unit p) w c a r.
Proof. intros H. apply costs_last; [done|]. intros ?. apply gratis_ret. Qed.
Lemma costs_obs_nat p w c a r : costs p w c a r → costs (obs_nat p) w c a r.
Proof. intros H. apply costs_last; [done|]. intros ?. apply gratis_ret. Qed.
Lemma costs_obs_val p w c a r : costs p w c a r → costs (obs_val p) w c a r.
Proof. intros H. apply costs_last; [done|]. intros ?. apply gratis_ret. Qed.
Lemma costs_obs_bool p w c a r : costs p w c a r → costs (obs_bool p) w c a r.
Proof. intros H. apply costs_last; [done|]. intros ?. apply gratis_ret. Qed.

Lemma wf_slen w m x l : wf w m → m !! x = Some l → ∃ v, objs w !! x = Some v ∧ v_siz v = length l ∧ slen m x = length l.
Proof.
  intros Hw Hl. destruct (wf_get _ _ _ _ Hw Hl) as (v & Hv & Hr). exists v. split; [done|]. split; [exact (vrep_siz _ _ _ Hr)|].
  unfold slen. by rewrite Hl.
Qed.
Lemma step_costs o w m : wf w m → sstep o m ≠ Bad → costs (vexec o) w (copies o m) (allocations o m) (relocations o m).
Proof.
  intros Hw Hb. destruct o; cbn [vexec copies allocations relocations];
    (apply costs_obs_unit || apply costs_obs_nat || apply costs_obs_val || apply costs_obs_bool); cbn [sstep] in Hb.
  - apply gratis_put_vec.
  - apply costs_construct_vec. apply costs_assign_range.
  - unfold snew in Hb. destruct (m !! x) eqn:Ex; [done|]. destruct (m !! y) as [l|] eqn:Ey; [|done].
    destruct (wf_slen _ _ _ _ Hw Ey) as (b & Hy & Hs & ->). apply (costs_at _ _ _ _ _ _ _ Hy).
    apply costs_construct_vec. rewrite <-Hs. apply (costs_assign_range m x (RElems y 0 (v_siz b))).
  - apply gratis_bind; [apply gratis_get_vec|]. intros b. apply gratis_bind; [apply gratis_put_vec|]. intros _. apply gratis_put_vec.
  - unfold snew in Hb. destruct (m !! x) eqn:Ex; [done|]. by apply costs_new_input with m.
  - apply costs_construct_vec. unfold vec_resize. apply (costs_mono _ _ (n - v_siz null_vec) 1 (v_siz null_vec)); cbn [null_vec v_siz]; [|lia..].
    apply (costs_resize_impl _ _ _ _ null_vec); [cbn [objs with_objs]; apply lookup_insert|]. intros. apply costs_uninit.
  - apply costs_construct_vec. unfold vec_resize_fill. apply costs_first; [apply gratis_bind_arg|]. intros s w' E. apply bind_arg_same in E as ->.
    apply (costs_mono _ _ (n - v_siz null_vec) 1 (v_siz null_vec)); cbn [null_vec v_siz]; [|lia..].
    apply (costs_resize_impl _ _ _ _ null_vec); [cbn [objs with_objs]; apply lookup_insert|]. intros. apply costs_uninit.
  - apply gratis_destroy_vec.
  - unfold vec_copy_assign. destruct (decide (x = y)) as [->|N].
    + clear Hw Hb. revert w. apply gratis_bind; [apply gratis_get_vec|]. intros _. apply gratis_ret.
    + destruct (m !! x); [|done]. destruct (m !! y) as [l'|] eqn:Ey; [|done].
      destruct (wf_slen _ _ _ _ Hw Ey) as (b & Hy & Hs & ->). apply (costs_at _ _ _ _ _ _ _ Hy). rewrite <-Hs.
      apply (costs_assign_range m x (RElems y 0 (v_siz b))).
  - apply gratis_move_assign.
  - apply costs_assign_range.
  - unfold vec_assign_fill. apply costs_first; [apply gratis_bind_arg|]. intros s w' _. apply costs_assign_impl. intros. apply costs_uninit.
  - unfold vec_assign_input. apply (costs_first temp_name); [apply gratis_temp_name|]. intros t w' E. unfold temp_name in E. injection E as Et Ew.
    rewrite <-Ew. pose proof (temp_fresh _ _ Hw) as Hf. rewrite Et in Hf.
    apply (costs_mono _ _ (length l + 0) (1 + Nat.log2 (length l) + 0) (2 * length l + 0)); [|lia..].
    apply (costs_temp _ _ _ m); [done|done|]. intros w2 v' _ _. revert w2. apply gratis_bind; [apply gratis_move_assign|]. intros _. apply gratis_destroy_vec.
  - destruct (m !! x) as [l|] eqn:Ex; [|done]. destruct (wf_slen _ _ _ _ Hw Ex) as (v & Hv & Hs & ->). rewrite <-Hs. by apply costs_push_back.
  - destruct (semplace m x i a) as [|r m2|e] eqn:Hd; [done| |exfalso; clear -Hd; destruct a; cbn [semplace] in Hd; repeat case_match; discriminate].
    destruct (semplace_inv _ _ _ _ _ _ Hd) as (u & m1 & l1 & Ha & Hl1 & Hi & _ & _).
    destruct (after_arg_len _ _ _ _ _ _ Ha Hl1) as (l0 & Hl0 & Hlen).
    destruct (wf_slen _ _ _ _ Hw Hl0) as (v & Hv & Hs & ->). rewrite <-Hs.
    unfold vec_emplace. apply costs_first; [apply gratis_bind_earg|]. intros s w' D. apply bind_earg_same in D as [-> <-].
    apply costs_insert_impl; [done|lia|]. intros p w1. apply costs_emplace_at.
  - destruct (m !! x) as [l|] eqn:Ex; [|done]. destruct (sarg m a) as [u|]; [|done]. destruct (decide _) as [[Hi _]|]; [|done].
    destruct (wf_slen _ _ _ _ Hw Ex) as (v & Hv & Hs & ->). rewrite <-Hs.
    unfold vec_insert_fill. apply costs_first; [apply gratis_bind_arg|]. intros s w' E. apply bind_arg_same in E as ->.
    apply costs_insert_impl; [done|lia|]. intros. apply costs_uninit.
  - destruct (m !! x) as [l|] eqn:Ex; [|done]. destruct (srange m r) as [vs|]; [|done]. destruct (decide _) as [Hi|]; [|done].
    destruct (wf_slen _ _ _ _ Hw Ex) as (v & Hv & Hs & ->). rewrite <-Hs.
    unfold vec_insert_range. apply costs_first; [apply gratis_bind_range|]. intros s w' E. apply (bind_range_same m) in E as [-> <-].
    apply costs_insert_impl; [done|lia|]. intros. apply costs_uninit.
  - destruct (m !! x) as [l'|] eqn:Ex; [|done]. destruct (decide _) as [Hi|]; [|done].
    destruct (wf_slen _ _ _ _ Hw Ex) as (v & Hv & Hs & ->). rewrite <-Hs in Hi |- *.
    unfold vec_insert_input. apply (costs_first temp_name); [apply gratis_temp_name|]. intros t w' E. unfold temp_name in E. injection E as Et Ew.
    rewrite <-Ew. pose proof (temp_fresh _ _ Hw) as Hf. rewrite Et in Hf. assert (t ≠ x) by congruence.
    apply (costs_mono _ _ (length l + 0) (1 + Nat.log2 (length l) + 1) (2 * length l + v_siz v)); [|lia..].
    apply (costs_temp _ _ _ m); [done|done|]. intros w2 v' _ Ho. apply costs_last.
    + apply costs_on_exn; [|apply gratis_destroy_vec]. apply (costs_at _ _ v'); [by rewrite Ho, lookup_insert|].
      apply costs_insert_impl; [by rewrite Ho, lookup_insert_ne|lia|]. intros. apply gratis_uninit_move_from.
    + intros i'. apply gratis_bind; [apply gratis_destroy_vec|]. intros _. apply gratis_ret.
  - apply gratis_bind; [apply gratis_get_vec|]. intros v. apply gratis_bind; [apply gratis_put_vec|]. intros _. apply gratis_destroy.
  - apply gratis_erase.
  - apply gratis_erase.
  - destruct (m !! x) as [l|] eqn:Ex; [|done]. destruct (wf_slen _ _ _ _ Hw Ex) as (v & Hv & Hs & ->). rewrite <-Hs.
    unfold vec_reserve. apply (costs_at _ _ _ _ _ _ _ Hv). case_match; [apply (costs_mono _ _ 0 0 0); [apply gratis_ret|lia..]|].
    apply (costs_seq _ _ _ 0 1 0 0 0 (v_siz v)); [apply costs_storage_new| |lia..]. intros tmp w1 _.
    apply costs_last; [|intros _; apply gratis_commit]. case_match; [apply (costs_mono _ _ 0 0 0); [apply gratis_ret|lia..]|]. apply costs_uninit_move_n.
  - destruct (m !! x) as [l|] eqn:Ex; [|done]. destruct (wf_slen _ _ _ _ Hw Ex) as (v & Hv & Hs & ->). rewrite <-Hs.
    apply costs_resize_impl; [done|]. intros. apply costs_uninit.
  - destruct (m !! x) as [l|] eqn:Ex; [|done]. destruct (wf_slen _ _ _ _ Hw Ex) as (v & Hv & Hs & ->). rewrite <-Hs.
    unfold vec_resize_fill. apply costs_first; [apply gratis_bind_arg|]. intros s w' E. apply bind_arg_same in E as ->.
    apply costs_resize_impl; [done|]. intros. apply costs_uninit.
  - destruct (m !! x) as [l|] eqn:Ex; [|done]. destruct (wf_slen _ _ _ _ Hw Ex) as (v & Hv & Hs & ->). rewrite <-Hs.
    unfold vec_shrink_to_fit. apply costs_noexcept. apply (costs_at _ _ _ _ _ _ _ Hv). case_match; [apply (costs_mono _ _ 0 0 0); [apply gratis_ret|lia..]|].
    apply (costs_seq _ _ _ 0 1 0 0 0 (v_siz v)); [apply costs_storage_new| |lia..]. intros tmp w1 _.
    apply costs_last; [apply costs_uninit_move_n|]. intros _. apply gratis_commit.
  - apply gratis_bind; [apply gratis_get_vec|]. intros v. apply gratis_bind; [apply gratis_destroy_n|]. intros _. apply gratis_put_vec.
  - apply gratis_bind; [apply gratis_get_vec|]. intros a. apply gratis_bind; [apply gratis_get_vec|]. intros b.
    apply gratis_bind; [apply gratis_put_vec|]. intros _. apply gratis_put_vec.
  - apply gratis_bind; [apply gratis_get_vec|]. intros u. apply gratis_store.
  - apply gratis_bind; [apply gratis_get_vec|]. intros u. destruct (v_siz u <=? i); [apply gratis_throw|]. apply gratis_bind; [apply gratis_get_vec|]. intros ?. apply gratis_rd.
  - apply gratis_bind; [apply gratis_get_vec|]. intros u. apply gratis_rd.
  - apply gratis_bind; [apply gratis_get_vec|]. intros u. apply gratis_rd.
  - apply gratis_bind; [apply gratis_get_vec|]. intros u. apply gratis_bind; [apply gratis_get_vec|]. intros ?. apply gratis_rd.
  - apply gratis_bind; [apply gratis_get_vec|]. intros u. apply gratis_ret.
  - apply gratis_bind; [apply gratis_bind; [apply gratis_get_vec|intros u; apply gratis_ret]|]. intros u. apply gratis_ret.
Qed.

(** ** Growing *)
Lemma added_rlen m x i r : added (VInsertRange x i r) = rlen m r.
Proof. by destruct r. Qed.
Lemma insert_step o x w m l v : wf w m → m !! x = Some l → objs w !! x = Some v → inserts x o = true → sstep o m ≠ Bad →
  ∃ r0 m' l', sstep o m = Done r0 m' ∧ m' !! x = Some l' ∧ length l' = length l + added o ∧
    run_to (vexec o) w (λ _ w', wf w' m' ∧ placed x v (length l) (added o) w w') (λ _ w', kept w w').
Proof.
  intros Hw Hl Hx Hi Hb.
  assert (Hnat : ∀ p n m', run_to p w (λ _ w', wf w' m' ∧ placed x v (length l) n w w') (λ _ w', kept w w') →
    run_to (obs_nat p) w (λ _ w', wf w' m' ∧ placed x v (length l) n w w') (λ _ w', kept w w')).
  { intros p n m' H. unfold obs_nat. apply run_to_bind. eapply run_to_mono; [exact H| |done]. intros k w' H'. by apply run_to_ret. }
  assert (Hem : ∀ i a, semplace m x i a ≠ Bad → ∃ r0 m' l' u m1 l1, semplace m x i a = Done r0 m' ∧ m' !! x = Some l' ∧ length l' = length l + 1 ∧
    after_arg m a u m1 ∧ m1 !! x = Some l1 ∧ length l1 = length l ∧ i ≤ length l1 ∧ m' = <[x:=insert_at i [u] l1]> m1).
  { intros i a Hn. destruct (semplace_cases m x i a) as [(r & m' & Hd)|]; [|done].
    destruct (semplace_inv _ _ _ _ _ _ Hd) as (u & m1 & l1 & Ha & Hl1 & Hle & _ & E).
    destruct (after_arg_len _ _ _ _ _ _ Ha Hl1) as (l0 & Hl0 & Hlen). rewrite Hl in Hl0. injection Hl0 as <-.
    exists r, m', (insert_at i [u] l1), u, m1, l1. rewrite insert_at_length, E, lookup_insert. cbn [length]. split_and!; [by rewrite <-E|done|lia|done|done|done|done|done]. }
  destruct o; cbn [inserts] in Hi; try discriminate; apply Nat.eqb_eq in Hi as ->; cbn [sstep] in Hb |- *; cbn [vexec].
  - rewrite Hl in Hb |- *. destruct (Hem _ _ Hb) as (r0 & m' & l' & u & m1 & l1 & Hd & Hl' & Hlen & Ha & Hl1 & Hlen1 & Hle & E).
    exists r0, m', l'. cbn [added]. split_and!; [done|done|done|]. apply Hnat. eapply run_to_mono; [by apply (push_back_run Hcfg x a u w m m1 l1 v)| |].
    + intros k w' (_ & Hw' & _ & Hp). rewrite Hlen1 in Hp. split; [|done]. rewrite E, <-Hlen1. unfold insert_at. by rewrite firstn_all, drop_all, app_nil_r.
    + by intros e w' [? _].
  - destruct (Hem _ _ Hb) as (r0 & m' & l' & u & m1 & l1 & Hd & Hl' & Hlen & Ha & Hl1 & Hlen1 & Hle & E).
    exists r0, m', l'. cbn [added]. split_and!; [done|done|done|]. apply Hnat. eapply run_to_mono; [by apply (emplace_run Hcfg x i a u w m m1 l1 v)| |].
    + intros k w' (_ & Hw' & _ & Hp). rewrite Hlen1 in Hp. split; [|done]. by rewrite E.
    + by intros e w' [? _].
  - rewrite Hl in Hb |- *. destruct (sarg m a) as [u|] eqn:Ha; [|done]. destruct (decide _) as [[Hi Hc]|]; [|done].
    eexists _, _, _. split; [done|]. rewrite lookup_insert. split; [done|]. rewrite insert_at_length, replicate_length. split; [done|].
    apply Hnat. eapply run_to_mono; [by apply (insert_fill_run Hcfg x i n a u w m l v)| |].
    + intros k w' (_ & Hw' & _ & Hp). done.
    + by intros e w' [? _].
  - rewrite Hl in Hb |- *. destruct (srange m r) as [vs|] eqn:Ha; [|done]. destruct (decide _) as [Hi|]; [|done].
    destruct (bind_range_eq Hcfg _ _ _ _ Hw Ha) as (f & _ & _ & Hrl & _).
    eexists _, _, _. split; [done|]. rewrite lookup_insert. split; [done|]. rewrite insert_at_length, (added_rlen m), Hrl. split; [done|].
    apply Hnat. eapply run_to_mono; [by apply (insert_range_run Hcfg x i r vs w m l v)| |].
    + intros k w' (_ & Hw' & _ & Hp). done.
    + by intros e w' [? _].
Qed.
Lemma inserts_reloc x os R0 : ∀ R w m l v,
  wf w m → m !! x = Some l → objs w !! x = Some v →
  nreloc w = R0 + R → R ≤ length l + v_cap v → (R = 0 ∨ v_cap v ≤ 2 * length l) →
  Forall (λ o, inserts x o = true) os → respects os w m →
  ∃ rs w', vrun os w = Finished rs w' ∧ nreloc w' ≤ R0 + 3 * (length l + added_all os).
Proof.
  induction os as [|o os IH]; intros R w m l v Hw Hl Hx HR Hc Hb Hf Hr.
  { exists [], w. split; [done|]. unfold added_all. cbn. lia. }
  apply Forall_cons in Hf as [Hi Hf].
  assert (Hbad : sstep o m ≠ Bad) by (intros E; cbn [respects] in Hr; by rewrite E in Hr).
  destruct (insert_step o x w m l v Hw Hl Hx Hi Hbad) as (r0 & m' & l' & Hd & Hl' & Hlen & Hrun).
  cbn [respects] in Hr. rewrite Hd in Hr. rewrite vrun_step. unfold run_to in Hrun.
  pose proof (wf_rep _ _ _ _ _ Hw Hx Hl) as Hrep. pose proof (vrep_le _ _ _ Hrep) as Hle.
  assert (Hcap : v_cap v = 0 ∨ 10 ≤ v_cap v).
  { unfold vrep, min_cap in Hrep. destruct (v_ptr v); [right; lia|]. destruct Hrep as [-> _]. by left. }
  assert (Hall : added_all (o :: os) = added o + added_all os) by done.
  destruct (vexec o w) as [r w1|e w1|f|]; [| |done|done].
  - destruct Hrun as [Hw1 Hp].
    assert (∃ v1 R1, objs w1 !! x = Some v1 ∧ nreloc w1 = R0 + R1 ∧ R1 ≤ length l' + v_cap v1 ∧ (R1 = 0 ∨ v_cap v1 ≤ 2 * length l'))
      as (v1 & R1 & Hx1 & H1 & H2 & H3).
    { destruct Hp as [(Hfit & Ho & _ & Hn)|(Hfit & Ho & _ & Hn)]; rewrite Ho, lookup_insert.
      - eexists _, R. split; [done|]. cbn [v_cap set_size]. lia.
      - eexists _, (R + length l). split; [done|]. cbn [v_cap]. unfold min_cap, grown. lia. }
    destruct (IH R1 w1 m' l' v1 Hw1 Hl' Hx1 H1 H2 H3 Hf Hr) as (rs & w' & Hv & Hle').
    rewrite Hv. eexists _, w'. split; [done|]. lia.
  - pose proof (kept_wf _ _ _ Hw Hrun) as Hw1. destruct Hrun as (Ho & _ & _ & Hn).
    destruct (IH R w1 m l v) as (rs & w' & Hv & Hle'); [done|done|by rewrite Ho|lia|lia|done|done|done|].
    rewrite Hv. eexists _, w'. split; [done|]. lia.
Qed.
Lemma resizes_cost x n : (∀ k, alloc_fails k = false) → (∀ k, ctor_fails k = false) → ∀ w m l,
  wf w m → m !! x = Some l → length l + n ≤ max_cap →
  ∃ rs w', vrun (one_by_one x (length l) n) w = Finished rs w' ∧ nalloc w' = nalloc w + n ∧
    2 * nreloc w' + n = 2 * nreloc w + 2 * n * length l + n * n.
Proof.
  intros Ha Hc. unfold one_by_one. induction n as [|n IH]; intros w m l Hw Hl Hle.
  { exists [], w. cbn [seq fmap list_fmap vrun]. split; [done|]. lia. }
  change (VResize x <$> seq (S (length l)) (S n)) with (VResize x (S (length l)) :: (VResize x <$> seq (S (S (length l))) n)).
  rewrite vrun_step. cbn [vexec]. destruct (wf_get _ _ _ _ Hw Hl) as (v & Hx & _).
  pose proof (resize_run Hcfg x (S (length l)) w m l v Hw Hl Hx) as H. unfold run_to in H. unfold obs_unit, bind.
  destruct (vec_resize x (S (length l)) w) as [u w1|e w1|f|]; [| |done|done].
  - unfold ret. destruct H as (Hw1 & _ & [(? & _)|(_ & _ & Hn & Hr)]); [lia|].
    replace (S (length l) - length l) with 1 in Hw1 by lia. rewrite take_ge in Hw1 by lia.
    assert (Hl1 : length (l ++ replicate 1 dflt) = S (length l)) by (rewrite app_length; cbn [length replicate]; lia).
    destruct (IH w1 _ _ Hw1 (lookup_insert _ _ _)) as (rs & w' & Hv & Hal & Hre); [rewrite Hl1; lia|].
    rewrite Hl1 in Hv, Hre. rewrite Hv. eexists _, w'. split; [done|]. split; [lia|]. lia.
  - exfalso. destruct H as (_ & _ & Hwhy). unfold why in Hwhy. destruct e; try done.
    all: first [lia | destruct Hwhy as (k & _ & E); first [by rewrite Ha in E | by rewrite Hc in E]].
Qed.
End cost.
