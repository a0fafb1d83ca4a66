(** Lemmas for C105. *)
From stdpp Require Import prelude gmap.
From Coq Require Import ZArith Lia.
From Verif Require Import Cpp StringModel StringSpec StringMem StringRep StringOps StringOps2 StringOps3 StringHistory
  StringExtra StringLimits StringCostSpec.
Local Open Scope nat_scope.

Section cost.
Context `{C : StrCfg} (Hcfg : cfg_ok).
Notation state := (gmap nat (list char)).

(** started in [w], [p] allocates at most [a] times ([nalloc] never goes down) *)
Definition costs {A} (p : M world A) (w : world) (a : nat) : Prop :=
  match p w with Ok _ w' | Exn _ w' => nalloc w ≤ nalloc w' ≤ nalloc w + a | _ => True end.
Definition gratis {A} (p : M world A) : Prop := ∀ w, costs p w 0.

Lemma costs_seq {A B} (p : M world A) (k : A → M world B) w a b c :
  costs p w a → (∀ x w', p w = Ok x w' → costs (k x) w' b) → a + b ≤ c → costs (bind p k) w c.
Proof.
  unfold costs, bind. intros H K L. destruct (p w) as [x w'|e w'|f|]; [|lia|done|done].
  specialize (K x w' eq_refl). destruct (k x w'); try done; lia.
Qed.
Lemma costs_mono {A} (p : M world A) w a b : costs p w a → a ≤ b → costs p w b.
Proof. unfold costs. intros H ?. destruct (p w); try done; lia. Qed.
Lemma costs_first {A B} (p : M world A) (k : A → M world B) w a :
  gratis p → (∀ x w', p w = Ok x w' → costs (k x) w' a) → costs (bind p k) w a.
Proof. intros G K. apply (costs_seq p k w 0 a a); [apply G|exact K|lia]. Qed.
Lemma costs_last {A B} (p : M world A) (k : A → M world B) w a : costs p w a → (∀ x, gratis (k x)) → costs (bind p k) w a.
Proof. intros H K. apply (costs_seq p k w a 0 a); [exact H|intros x w' _; apply K|lia]. Qed.
Lemma costs_at {A B} (p : M world A) (k : A → M world B) w x a : p w = Ok x w → costs (k x) w a → costs (bind p k) w a.
Proof. intros E H. unfold costs, bind in *. by rewrite E. Qed.
Lemma costs_on_exn {A} (p : M world A) (h : M world unit) w a : costs p w a → gratis h → costs (on_exn p h) w a.
Proof.
  unfold costs, on_exn. intros H G. destruct (p w) as [x w'|e w'|f|]; try done.
  specialize (G w'). unfold costs in G. destruct (h w'); try done; lia.
Qed.
Lemma costs_noexcept {A} (p : M world A) w a : costs p w a → costs (noexcept p) w a.
Proof. unfold costs, noexcept. by destruct (p w). Qed.
Lemma gratis_bind {A B} (p : M world A) (k : A → M world B) : gratis p → (∀ x, gratis (k x)) → gratis (bind p k).
Proof. intros G K w. apply costs_first; [done|]. intros x w' _. apply K. Qed.
Lemma gratis_on_exn {A} (p : M world A) (h : M world unit) : gratis p → gratis h → gratis (on_exn p h).
Proof. intros G K w. by apply costs_on_exn. Qed.
Lemma gratis_noexcept {A} (p : M world A) : gratis p → gratis (noexcept p).
Proof. intros G w. by apply costs_noexcept. Qed.
Lemma gratis_ret {A} (a : A) : gratis (ret a).
Proof. intros w. unfold costs, ret. lia. Qed.
Lemma gratis_stuck {A} f : gratis (stuck f : M world A).
Proof. done. Qed.
Lemma gratis_throw {A} e : gratis (throw e : M world A).
Proof. intros w. unfold costs, throw. lia. Qed.
Ltac prim := intros w; unfold costs; repeat case_match; try done; simplify_eq; cbn [nalloc with_objs with_mem]; lia.
Lemma gratis_rd p : gratis (rd p).
Proof. unfold rd. prim. Qed.
Lemma gratis_wr p v : gratis (wr p v).
Proof. unfold wr. prim. Qed.
Lemma gratis_this_module : gratis this_module.
Proof. unfold this_module. prim. Qed.
Lemma gratis_delete_char m b : gratis (delete_char m b).
Proof. unfold delete_char. prim. Qed.
Lemma gratis_count_copied n : gratis (count_copied n).
Proof. intros w. unfold costs, count_copied. cbn [nalloc]. lia. Qed.
Lemma gratis_get_str x : gratis (get_str x).
Proof. unfold get_str. prim. Qed.
Lemma gratis_put_str x s : gratis (put_str x s).
Proof. unfold put_str. prim. Qed.
Lemma gratis_drop_str x : gratis (drop_str x).
Proof. unfold drop_str. prim. Qed.
Lemma gratis_temp_name : gratis temp_name.
Proof. unfold temp_name. prim. Qed.
Lemma gratis_mem (f : world → gmap (nat + nat) (list (option char))) : gratis (λ w, Ok tt (with_mem (f w) w)).
Proof. prim. Qed.
Lemma gratis_rotate b i j k : gratis (rotate b i j k).
Proof. unfold rotate. prim. Qed.
Lemma costs_new_char n w : costs (new_char n) w 1.
Proof. unfold costs, new_char. destruct (alloc_fails (nalloc w) || (ptrdiff_max <? n)); cbn [nalloc]; lia. Qed.

(** everything that is put together from these *)
Ltac free := repeat first
  [ apply gratis_ret | apply gratis_stuck | apply gratis_throw | apply gratis_rd | apply gratis_wr | apply gratis_this_module
  | apply gratis_delete_char | apply gratis_count_copied | apply gratis_get_str | apply gratis_put_str | apply gratis_drop_str
  | apply gratis_temp_name | apply gratis_rotate | apply gratis_noexcept
  | apply gratis_bind; [|intros ?] | match goal with |- gratis (match ?e with _ => _ end) => destruct e end ].
Lemma gratis_read_heap x : gratis (read_heap x).
Proof. unfold read_heap. free. Qed.
Lemma gratis_read_sso x : gratis (read_sso x).
Proof. unfold read_sso. free. Qed.
Lemma gratis_write_sso x n : gratis (write_sso x n).
Proof. unfold write_sso. free; apply (gratis_mem (λ w, <[inl x:=replicate (sso_size + 1) None]> (mem w))). Qed.
Lemma gratis_write_heap x h : gratis (write_heap x h).
Proof. unfold write_heap. free; apply (gratis_mem (λ w, delete (inl x) (mem w))). Qed.
Lemma gratis_write_dealloc x b : gratis (write_dealloc x b).
Proof. unfold write_dealloc. free. Qed.
Lemma gratis_rd_src s : gratis (rd_src s).
Proof. destruct s as [[c|]|p]; cbn [rd_src]; free. Qed.
Lemma gratis_copy_loop from d n : ∀ k, gratis (copy_loop from d k n).
Proof. induction n as [|n IH]; intros k; cbn [copy_loop]; [free|]. apply gratis_bind; [apply gratis_rd_src|]. intros v. apply gratis_bind; [free|]. intros _. apply IH. Qed.
Lemma gratis_copy_from from d n : gratis (copy_from from d n).
Proof. apply gratis_copy_loop. Qed.
Lemma gratis_copy_n s n d : gratis (copy_n s n d).
Proof. apply gratis_copy_from. Qed.
Lemma gratis_copy_backward b first n : ∀ d, gratis (copy_backward b first n d).
Proof.
  induction n as [|n IH]; intros d; cbn [copy_backward]; [free|]. destruct d as [|d]; [free|].
  apply gratis_bind; [free|]. intros v. apply gratis_bind; [free|]. intros _. apply IH.
Qed.
Lemma gratis_fill_n n c : ∀ d, gratis (fill_n d n c).
Proof. induction n as [|n IH]; intros d; cbn [fill_n]; [free|]. apply gratis_bind; [free|]. intros _. apply IH. Qed.
Lemma gratis_load n : ∀ s, gratis (load s n).
Proof. induction n as [|n IH]; intros s; cbn [load]; [free|]. apply gratis_bind; [free|]. intros v. apply gratis_bind; [apply IH|]. intros l. free. Qed.
Ltac free' := repeat first [ progress free | apply gratis_read_heap | apply gratis_read_sso | apply gratis_write_sso | apply gratis_write_heap
  | apply gratis_write_dealloc | apply gratis_rd_src | apply gratis_copy_from | apply gratis_copy_n | apply gratis_copy_backward
  | apply gratis_fill_n | apply gratis_load ].

(** ** storage_t *)
Lemma gratis_clear_to_sso x : gratis (clear_to_sso x).
Proof. unfold clear_to_sso. free'. Qed.
Lemma gratis_move_heap x y : gratis (move_heap x y).
Proof. unfold move_heap. free'; apply gratis_clear_to_sso. Qed.
Lemma gratis_copy_sso x y : gratis (copy_sso x y).
Proof. unfold copy_sso. free'. Qed.
Lemma gratis_storage_default x : gratis (storage_default x).
Proof. unfold storage_default. free'; apply gratis_clear_to_sso. Qed.
Lemma costs_storage_new x n w : costs (storage_new x n) w (block n).
Proof.
  unfold storage_new, block. destruct (Nat.ltb_spec sso_size n).
  - rewrite decide_False by lia. apply costs_first; [free|]. intros m w' _. apply costs_last; [apply costs_new_char|]. intros b. free'.
  - rewrite decide_True by lia. apply gratis_storage_default.
Qed.
Lemma gratis_storage_move_new x y : gratis (storage_move_new x y).
Proof. unfold storage_move_new. free'; first [apply gratis_move_heap|apply gratis_copy_sso]. Qed.
Lemma gratis_release x : gratis (release x).
Proof. unfold release. free'. Qed.
Lemma gratis_storage_move_assign x y : gratis (storage_move_assign x y).
Proof.
  unfold storage_move_assign. case_decide; [free'|]. apply gratis_bind; [apply gratis_release|]. intros _. free'; first [apply gratis_move_heap|apply gratis_copy_sso].
Qed.
Lemma gratis_storage_dtor x : gratis (storage_dtor x).
Proof. unfold storage_dtor. apply gratis_bind; [apply gratis_release|]. intros _. free. Qed.
Lemma gratis_commit x t : gratis (commit x t).
Proof. unfold commit. apply gratis_bind; [apply gratis_storage_move_assign|]. intros _. apply gratis_storage_dtor. Qed.
Lemma gratis_data x : gratis (str_data x).
Proof. unfold str_data. free'. Qed.
Lemma gratis_capacity x : gratis (str_capacity x).
Proof. unfold str_capacity. free'. Qed.
Lemma gratis_size x : gratis (str_size x).
Proof. unfold str_size. free'. Qed.
Lemma gratis_set_size x n : gratis (set_size x n).
Proof. unfold set_size. free'. Qed.
Lemma gratis_bind_range r : gratis (bind_range r).
Proof. destruct r; cbn [bind_range]; [free|]. apply gratis_bind; [apply gratis_data|]. intros p. free. Qed.
Ltac free2 := repeat first [ apply gratis_data | apply gratis_capacity | apply gratis_size | apply gratis_set_size
  | apply gratis_bind_range | apply gratis_storage_dtor | apply gratis_commit | apply gratis_bind; [|intros ?]
  | match goal with |- gratis (match ?e with _ => _ end) => destruct e end | progress free' ].
Lemma gratis_erase x i j : gratis (str_erase x i j).
Proof. unfold str_erase. free2. Qed.
Lemma gratis_fill_list x l o : gratis (fill_list x l o).
Proof. unfold fill_list. free2. Qed.
Lemma gratis_fill_count x n c o : gratis (fill_count x n c o).
Proof. unfold fill_count. free2. Qed.
Lemma gratis_fill_str x t o : gratis (fill_str x t o).
Proof. unfold fill_str. free2. Qed.

(** ** Functions *)
Lemma wadd_le a b : wadd a b ≤ a + b.
Proof. unfold wadd. pose proof (Z.mod_le (Z.of_nat a + Z.of_nat b) (2 ^ Z.of_nat wbits)) as H. assert (0 < 2 ^ Z.of_nat wbits)%Z by (apply Z.pow_pos_nonneg; lia). lia. Qed.
Lemma block_mono a b : a ≤ b → block a ≤ block b.
Proof. unfold block. intros. repeat case_decide; lia. Qed.
Lemma block_wadd a b : block (wadd a b) ≤ block (a + b).
Proof. apply block_mono, wadd_le. Qed.
Lemma costs_storage_assign x n w : costs (storage_assign x n) w (block n).
Proof. unfold storage_assign. apply costs_first; [free|]. intros t w' _. apply costs_last; [apply costs_storage_new|]. intros _. apply gratis_commit. Qed.
Lemma costs_reserve x n w : costs (str_reserve x n) w (block n).
Proof.
  unfold str_reserve. apply costs_first; [apply gratis_capacity|]. intros c w1 _.
  case_match; [apply (costs_mono _ _ 0); [apply gratis_ret|lia]|]. case_match; [apply (costs_mono _ _ 0); [apply gratis_throw|lia]|].
  apply costs_first; [free|]. intros t w2 _. apply costs_last; [apply costs_storage_new|]. intros _. free2.
Qed.
Lemma costs_resize_fill x n c w : costs (str_resize_fill x n c) w (block n).
Proof.
  unfold str_resize_fill. apply costs_first; [apply gratis_size|]. intros o w1 _. apply costs_last; [apply costs_reserve|]. intros _. free2.
Qed.
Lemma costs_resize x n w : costs (str_resize x n) w (block n).
Proof. apply costs_resize_fill. Qed.
Lemma reserve_within x w n c : str_capacity x w = Ok c w → n ≤ c → str_reserve x n w = Ok tt w.
Proof. intros E L. unfold str_reserve, bind. rewrite E. apply Nat.leb_le in L. by rewrite L. Qed.
(** push_back allocates exactly when the string is full *)
Lemma push_back_costs w ρ x s l ch : Rep w ρ → ρ !! x = Some s → holds s l →
  costs (str_push_back x ch) w (if decide (length l < cap s) then 0 else 1) ∧
  ∀ w', str_push_back x ch w = Ok tt w' → nalloc w' = nalloc w + (if decide (length l < cap s) then 0 else 1) ∧
    ∃ r, Rep w' (<[x:=r]> ρ) ∧ holds r (l ++ [ch]) ∧ (length l < cap s → cap r = cap s) ∧ (cap s = length l → cap r = heap_cap (S (length l))).
Proof.
  intros H Hx Hl. pose proof (holds_cap _ _ Hl) as Hcl. pose proof (push_back_run Hcfg w ρ x s l ch H Hx Hl) as Hrun. unfold run_to in Hrun.
  destruct (decide (length l < cap s)) as [Hlt|Hge].
  - unfold costs. destruct (str_push_back x ch w) as [[] w1|e w1|f|]; [|exfalso; destruct Hrun as (_ & _ & ? & _); lia|done|done].
    destruct Hrun as [(r & H1 & Hl1 & _ & Hk) _]. destruct (Hk ltac:(lia)) as [[_ Hc] (_ & Ha & _)]. split; [lia|].
    intros w' [= <-]. split; [lia|]. exists r. split; [done|]. split; [done|]. split; [done|lia].
  - assert (Hcap : cap s = length l) by lia.
    pose proof (str_size_eq _ _ _ _ H Hx) as Es. rewrite (proj1 Hl) in Es. pose proof (str_capacity_eq _ _ _ _ H Hx) as Ec.
    pose proof (reserve_run Hcfg w ρ x s l (wadd (length l) 1) H Hx Hl) as Hres. unfold run_to in Hres.
    assert (costs (str_push_back x ch) w 1 ∧ ∀ w', str_push_back x ch w = Ok tt w' → nalloc w' = nalloc w + 1) as [Hc Hex].
    { assert (Hw1 : wadd (length l) 1 = S (length l)).
      { pose proof (rep_cap Hcfg _ _ _ _ H Hx) as [_ Hb]. rewrite wadd_small; [lia|]. destruct Hcfg as (_ & _ & _ & Hw & _). pose proof (ptrdiff_half Hw). lia. }
      pose proof (costs_reserve x (wadd (length l) 1) w) as Hcr.
      unfold costs, str_push_back, bind in *. rewrite Es, Ec, Hcap, Nat.eqb_refl.
      destruct (str_reserve x (wadd (length l) 1) w) as [[] w1|e w1|f|] eqn:E; [| |done|done].
      - destruct Hres as (r & H1 & Hl1 & _ & Hn & _ & Hnew). destruct (Hnew ltac:(lia)) as (_ & Ha & _).
        pose proof (str_size_eq _ _ _ _ H1 (lookup_insert _ _ _)) as Es1. rewrite (proj1 Hl1) in Es1. rewrite Es1.
        pose proof (resize_run Hcfg w1 _ x r l (wadd (length l) 1) ch H1 (lookup_insert _ _ _) Hl1) as Hrs. unfold run_to in Hrs.
        destruct (str_resize_fill x (wadd (length l) 1) ch w1) as [[] w2|e w2|f|]; [|exfalso; destruct Hrs as (_ & _ & ? & _); lia|done|done].
        destruct Hrs as (r2 & _ & _ & _ & Hk). destruct (Hk Hn) as [_ (_ & Ha2 & _)]. split; [lia|]. intros w' [= <-]. lia.
      - split; [|done]. unfold block in Hcr. case_decide; lia. }
    split; [done|]. intros w' E. split; [by apply Hex|]. rewrite E in Hrun. destruct Hrun as [(r0 & H0 & Hl0 & _) Hr]. destruct (Hr Hcap) as (_ & r & Hr1 & Hr2).
    exists r0. split; [done|]. split; [done|]. split; [lia|]. intros _.
    pose proof (str_capacity_eq _ _ _ _ H0 (lookup_insert _ _ _)) as E1. pose proof (str_capacity_eq _ _ _ _ Hr1 (lookup_insert _ _ _)) as E2. congruence.
Qed.

(** blocks that a string of capacity [c] has gone through if it grew one by one *)
Definition grown (c : nat) : nat := (c + 1) `div` footprint - (if decide (c ≤ sso_size) then 0 else 1).
Lemma fp_pos : 3 ≤ footprint ∧ footprint = sso_size + 2.
Proof. destruct Hcfg as (Hp & _). unfold sso_size, footprint. lia. Qed.
Lemma div_mul_add j r : r < footprint → (j * footprint + r) `div` footprint = j.
Proof. intros Hr. rewrite Nat.div_add_l by lia. rewrite Nat.div_small by lia. lia. Qed.
Lemma grown_inline : grown sso_size = 0.
Proof. destruct fp_pos as [? E]. unfold grown. rewrite decide_True by lia. rewrite Nat.div_small by lia. done. Qed.
Lemma grown_heap j : 2 ≤ j → grown (j * footprint) = j - 1.
Proof.
  destruct fp_pos as [? E]. intros Hj. unfold grown. rewrite decide_False by nia. by rewrite div_mul_add by lia.
Qed.
Lemma shape_grown s : shape s → cap s = sso_size ∨ ∃ j, 2 ≤ j ∧ cap s = j * footprint.
Proof.
  unfold shape, cap. destruct (r_home s).
  - intros [(k & Hk & E) _]. right. exists k. split; [done|]. lia.
  - intros ->. left. lia.
Qed.
Lemma heap_cap_step s : shape s → cap s + 1 ≤ ptrdiff_max →
  ∃ j, 1 ≤ j ∧ grown (cap s) = j - 1 ∧ heap_cap (S (cap s)) = S j * footprint ∧ j ≤ blocks (S (cap s)).
Proof.
  intros Hs Hb. destruct fp_pos as [? E]. destruct (shape_grown s Hs) as [->|(j & Hj & Hc)].
  - exists 1. sp; [lia|apply grown_inline| |].
    + rewrite (heap_cap_min Hcfg) by lia. lia.
    + unfold blocks. replace (S sso_size + 1) with (1 * footprint + 0) by lia. rewrite div_mul_add by lia. lia.
  - exists j. rewrite Hc in *. sp; [lia|by apply grown_heap| |].
    + assert (Hr : roomy (S (j * footprint))) by (apply (small_roomy Hcfg); lia).
      unfold heap_cap. rewrite wadd_small by (unfold roomy in Hr; lia).
      replace (S (j * footprint) + (footprint - 1)) with (S j * footprint) by lia. rewrite Nat.div_mul by lia. lia.
    + unfold blocks. replace (S (j * footprint) + 1) with (j * footprint + 2) by lia. rewrite div_mul_add by lia. lia.
Qed.
Lemma blocks_mono a b : a ≤ b → blocks a ≤ blocks b.
Proof. intros. unfold blocks. destruct fp_pos. apply Nat.div_le_mono; lia. Qed.

Lemma push_all_costs x vs : ∀ w ρ s l, Rep w ρ → ρ !! x = Some s → holds s l →
  costs (push_all x vs) w (blocks (length l + length vs) - grown (cap s)).
Proof.
  induction vs as [|v vs IH]; intros w ρ s l H Hx Hl; cbn [push_all].
  { apply (costs_mono _ _ 0); [apply gratis_ret|lia]. }
  apply costs_first; [apply gratis_rd_src|]. intros c w0 E0.
  assert (w0 = w) as ->. { destruct v; [by injection E0|done]. }
  destruct (push_back_costs w ρ x s l c H Hx Hl) as [Hc Hk]. pose proof (holds_cap _ _ Hl) as Hcl.
  pose proof (rep_shape _ _ H _ _ Hx) as Hsh. pose proof (rep_cap Hcfg _ _ _ _ H Hx) as [_ Hmax].
  destruct (decide (length l < cap s)) as [Hlt|Hge].
  - apply (costs_seq _ _ _ 0 (blocks (length l + length (v :: vs)) - grown (cap s))); [done| |lia].
    intros [] w1 E1. destruct (Hk w1 E1) as (_ & r & H1 & Hl1 & Hcr & _). rewrite <-(Hcr Hlt).
    pose proof (IH w1 _ r _ H1 (lookup_insert _ _ _) Hl1) as Hi. rewrite app_length in Hi. cbn [length] in *.
    by replace (length l + S (length vs)) with (length l + 1 + length vs) by lia.
  - assert (Ec : cap s = length l) by lia. destruct (heap_cap_step s Hsh Hmax) as (j & Hj & Hg & Hh & Hb).
    pose proof (blocks_mono (S (cap s)) (length l + length (v :: vs))) as Hm. cbn [length] in Hm.
    apply (costs_seq _ _ _ 1 (blocks (length l + length (v :: vs)) - j)); [done| |cbn [length]; lia].
    intros [] w1 E1. destruct (Hk w1 E1) as (_ & r & H1 & Hl1 & _ & Hcr). specialize (Hcr Ec). rewrite <-Ec, Hh in Hcr.
    pose proof (IH w1 _ r _ H1 (lookup_insert _ _ _) Hl1) as Hi. rewrite app_length, Hcr, grown_heap in Hi by lia. cbn [length] in *.
    replace (S j - 1) with j in Hi by lia. by replace (length l + S (length vs)) with (length l + 1 + length vs) by lia.
Qed.
Lemma push_all_grows x vs : ∀ w ρ s l w' k, Rep w ρ → ρ !! x = Some s → holds s l → cap s ≤ (k + 1) * footprint →
  push_all x vs w = Ok tt w' → nalloc w ≤ nalloc w' ∧ length l + length vs ≤ (k + (nalloc w' - nalloc w) + 1) * footprint.
Proof.
  induction vs as [|v vs IH]; intros w ρ s l w' k H Hx Hl Hcap E; cbn [push_all] in E.
  { injection E as <-. pose proof (holds_cap _ _ Hl). rewrite Nat.sub_diag. cbn [length]. rewrite !Nat.add_0_r. lia. }
  destruct v as [c|]; [|done]. unfold bind at 1 in E. cbn [rd_src] in E. unfold ret at 1 in E. unfold bind in E.
  destruct (str_push_back x c w) as [[] w1|e w1|f|] eqn:E1; try done.
  destruct (push_back_costs w ρ x s l c H Hx Hl) as [_ Hk]. pose proof (holds_cap _ _ Hl) as Hcl.
  destruct (Hk w1 E1) as (Ha & r & H1 & Hl1 & Hkeep & Hnew).
  pose proof (rep_shape _ _ H _ _ Hx) as Hsh. pose proof (rep_cap Hcfg _ _ _ _ H Hx) as [_ Hmax]. destruct fp_pos as [Hfp Efp].
  destruct (decide (length l < cap s)) as [Hlt|Hge].
  - destruct (IH w1 _ r _ w' k H1 (lookup_insert _ _ _) Hl1) as [Hle Hlen]; [by rewrite Hkeep|done|].
    rewrite app_length in Hlen. cbn [length] in *. rewrite Nat.add_0_r in Ha. rewrite Ha in *. split; [lia|]. lia.
  - assert (Ec : cap s = length l) by lia. specialize (Hnew Ec).
    destruct (IH w1 _ r _ w' (S k) H1 (lookup_insert _ _ _) Hl1) as [Hle Hlen]; [|done|].
    { rewrite Hnew, <-Ec. destruct (heap_cap_step s Hsh Hmax) as (j & Hj & Hg & -> & _).
      destruct (shape_grown s Hsh) as [Es|(i & Hi & Es)]; rewrite Es in *; [rewrite grown_inline in Hg|rewrite grown_heap in Hg by done]; nia. }
    rewrite app_length in Hlen. cbn [length] in *. split; [lia|].
    replace (k + (nalloc w' - nalloc w) + 1) with (S k + (nalloc w' - nalloc w1) + 1) by lia. lia.
Qed.
Lemma new_input_costs w ρ x vs : Rep w ρ → ρ !! x = None → costs (str_new_input x vs) w (blocks (length vs)).
Proof.
  intros H Hx. unfold str_new_input, construct_str. apply costs_first; [apply gratis_storage_default|]. intros [] w0 E0.
  destruct (default_eq w ρ x H Hx) as (w1 & E1 & _ & H1). rewrite E1 in E0. injection E0 as <-.
  apply costs_on_exn; [|apply gratis_storage_dtor].
  eapply costs_mono; [apply (push_all_costs x vs w1 _ raw0 [] H1 (lookup_insert _ _ _) holds_raw0)|cbn [length]; rewrite Nat.add_0_l; lia].
Qed.

(** ** Calls *)
Lemma costs_construct x body w a : (∀ w', costs body w' a) → costs (construct_str x body) w a.
Proof.
  intros Hb. unfold construct_str. apply costs_first; [apply gratis_storage_default|]. intros ? w' _. apply costs_on_exn; [apply Hb|apply gratis_storage_dtor].
Qed.
Lemma costs_new_from x s w : costs (str_new_from x s) w (block s.2).
Proof. apply costs_construct. intros w'. apply costs_last; [apply costs_storage_assign|]. intros ?. free2. Qed.
Lemma costs_new_fill x n c w : costs (str_new_fill x n c) w (block n).
Proof. apply costs_construct. intros w'. apply costs_last; [apply costs_storage_assign|]. intros ?. free2. Qed.
Lemma bind_range_len r w s w' : bind_range r w = Ok s w' → s.2 = rlen r.
Proof.
  destruct r; cbn [bind_range rlen]; [by intros [= <- _]|]. unfold bind, ret. destruct (str_data y w); [|done..]. by intros [= <- _].
Qed.
Lemma costs_new_range x r w : costs (str_new_range x r) w (block (rlen r)).
Proof.
  unfold str_new_range. apply costs_first; [apply gratis_bind_range|]. intros s w' E. rewrite <-(bind_range_len _ _ _ _ E). apply costs_new_from.
Qed.
Lemma costs_concat z l r w : costs (str_concat z l r) w (block (rlen l + rlen r)).
Proof.
  unfold str_concat. apply costs_first; [apply gratis_bind_range|]. intros a w1 E1. apply costs_first; [apply gratis_bind_range|]. intros b w2 E2.
  rewrite <-(bind_range_len _ _ _ _ E1), <-(bind_range_len _ _ _ _ E2). apply costs_construct. intros w'.
  apply costs_last; [eapply costs_mono; [apply costs_storage_assign|apply block_wadd]|]. intros ?. free2.
Qed.
Lemma costs_assign_no_aliasing x n fill w : gratis fill → costs (assign_no_aliasing x n fill) w (block n).
Proof. intros G. unfold assign_no_aliasing. apply costs_last; [apply costs_resize|done]. Qed.

(** with the sizes of the strings known *)
Lemma costs_append_no_aliasing x n fill w ρ s l : Rep w ρ → ρ !! x = Some s → holds s l → (∀ o, gratis (fill o)) →
  costs (append_no_aliasing x n fill) w (block (length l + n)).
Proof.
  intros H Hx Hl G. unfold append_no_aliasing. eapply costs_at; [by eapply str_size_eq|]. rewrite (proj1 Hl).
  apply costs_last; [eapply costs_mono; [apply costs_resize|apply block_wadd]|done].
Qed.
Lemma costs_insert_no_aliasing x i n fill w ρ s l : Rep w ρ → ρ !! x = Some s → holds s l → gratis fill →
  costs (insert_no_aliasing x i n fill) w (block (length l + n)).
Proof.
  intros H Hx Hl G. unfold insert_no_aliasing. eapply costs_at; [by eapply str_size_eq|]. rewrite (proj1 Hl).
  apply costs_last; [eapply costs_mono; [apply costs_resize|apply block_wadd]|]. intros ?.
  apply gratis_bind; [free2|intros d]. apply gratis_bind; [free2|intros k]. apply gratis_bind; [free2|intros ?]. apply gratis_bind; [done|intros ?]. free.
Qed.
Lemma costs_replace_no_aliasing x i j n fill w ρ s l : Rep w ρ → ρ !! x = Some s → holds s l → (∀ o, gratis (fill o)) →
  costs (replace_no_aliasing x i j n fill) w (block (length l - (j - i) + n)).
Proof.
  intros H Hx Hl G. unfold replace_no_aliasing. destruct (Nat.ltb_spec (j - i) n).
  - eapply costs_at; [by eapply str_size_eq|]. rewrite (proj1 Hl).
    apply costs_last; [eapply costs_mono; [apply costs_resize|etrans; [apply block_wadd|apply block_mono; lia]]|]. intros ?.
    apply gratis_bind; [free2|intros d]. apply gratis_bind; [free2|intros k]. apply gratis_bind; [free2|intros ?]. done.
  - apply (costs_mono _ _ 0); [|lia]. apply costs_first; [done|]. intros ? ? _. apply costs_last; [apply gratis_erase|]. intros ?. free.
Qed.
Lemma data_same x w p w' : str_data x w = Ok p w' → w' = w.
Proof.
  unfold str_data, read_heap, read_sso, get_str, bind, ret, stuck. destruct (objs w !! x) as [s|] eqn:Ex; [|done].
  destruct (s_dealloc s); rewrite ?Ex; destruct (s_u s); try done. all: by intros [= <- <-].
Qed.
Lemma bind_range_same r w s w' : bind_range r w = Ok s w' → w' = w ∧ s.2 = rlen r.
Proof.
  intros E. split; [|by eapply bind_range_len]. destruct r; cbn [bind_range] in E; [by injection E|].
  unfold bind in E. destruct (str_data y w) as [p w1|e w1|f|] eqn:E1; try done. apply data_same in E1 as ->. by injection E.
Qed.
Lemma costs_append_range x r w ρ s l : Rep w ρ → ρ !! x = Some s → holds s l →
  costs (str_append_range x r) w (block (length l + rlen r)).
Proof.
  intros H Hx Hl. unfold str_append_range. apply costs_first; [apply gratis_bind_range|]. intros f w1 E. apply bind_range_same in E as [-> <-].
  eapply costs_at; [by eapply str_size_eq|]. rewrite (proj1 Hl). eapply costs_at; [by eapply str_capacity_eq|].
  case_match.
  - apply (costs_mono _ _ 0); [|lia]. clear H. revert w. match goal with |- ∀ w, costs ?p w 0 => change (gratis p) end. free2.
  - apply costs_first; [free|]. intros t w2 _. apply costs_last; [eapply costs_mono; [apply costs_storage_new|apply block_wadd]|]. intros ?.
    apply gratis_bind; [apply gratis_on_exn; free2|]. intros ?. free2.
Qed.
Lemma costs_insert_range x i r w ρ s l : Rep w ρ → ρ !! x = Some s → holds s l →
  costs (str_insert_range x i r) w (block (length l + rlen r)).
Proof.
  intros H Hx Hl. unfold str_insert_range. apply costs_first; [apply gratis_bind_range|]. intros f w1 E. apply bind_range_same in E as [-> <-].
  eapply costs_at; [by eapply str_size_eq|]. rewrite (proj1 Hl). eapply costs_at; [by eapply str_capacity_eq|].
  apply costs_last; [|intros ?; free].
  case_match.
  - apply (costs_mono _ _ 0); [|lia]. clear H. revert w. match goal with |- ∀ w, costs ?p w 0 => change (gratis p) end. free2.
  - apply costs_first; [free|]. intros t w2 _. apply costs_last; [eapply costs_mono; [apply costs_storage_new|apply block_wadd]|]. intros ?.
    apply gratis_bind; [apply gratis_on_exn; free2|]. intros ?. free2.
Qed.
Lemma costs_replace_range x i j r w ρ s l : Rep w ρ → ρ !! x = Some s → holds s l →
  costs (str_replace_range x i j r) w (block (length l - (j - i) + rlen r)).
Proof.
  intros H Hx Hl. unfold str_replace_range. apply costs_first; [apply gratis_bind_range|]. intros f w1 E. apply bind_range_same in E as [-> <-].
  eapply costs_at; [by eapply str_size_eq|]. rewrite (proj1 Hl). eapply costs_at; [by eapply str_capacity_eq|].
  case_match.
  - apply (costs_mono _ _ 0); [|lia]. clear H. revert w. match goal with |- ∀ w, costs ?p w 0 => change (gratis p) end.
    apply gratis_bind; [free2|]. intros d. apply gratis_bind; [free2|]. intros ?. cbn zeta. apply gratis_bind; [free2|]. intros ?.
    apply gratis_bind; [apply gratis_erase|]. intros ?. free2.
  - apply costs_first; [free|]. intros t w2 _. apply costs_last; [eapply costs_mono; [apply costs_storage_new|apply block_wadd]|]. intros ?.
    apply gratis_bind; [apply gratis_on_exn; free2|]. intros ?. free2.
Qed.
Lemma costs_assign_range x r w : costs (str_assign_range x r) w (block (rlen r)).
Proof.
  unfold str_assign_range. apply costs_first; [apply gratis_bind_range|]. intros f w1 E. apply bind_range_same in E as [-> <-].
  apply costs_first; [free2|]. intros n w2 _. apply costs_first; [free2|]. intros c w3 _. case_match.
  - apply (costs_mono _ _ 0); [|lia]. clear. revert w3. match goal with |- ∀ w, costs ?p w 0 => change (gratis p) end. free2.
  - apply costs_first; [free|]. intros t w4 _. apply costs_last; [apply costs_new_from|]. intros ?. free2.
Qed.
Lemma costs_with_input {A} l (body : nat → M world A) w ρ b : Rep w ρ →
  (∀ t w1 q cs, ρ !! t = None → Rep w1 (<[t:=q]> ρ) → holds q cs → length cs = length l → costs (body t) w1 b) →
  costs (with_input l body) w (blocks (length l) + b).
Proof.
  intros H Hb. unfold with_input. destruct (temp_name_eq w ρ H) as (t & Et & Ht). eapply costs_at; [exact Et|].
  eapply costs_seq; [by eapply new_input_costs| |reflexivity]. intros [] w1 E1.
  pose proof (new_input_run Hcfg w ρ t l H Ht) as Hrun. unfold run_to in Hrun. rewrite E1 in Hrun. destruct Hrun as (cs & q & Ev & H1 & Hq & _).
  apply costs_last; [|intros ?; free2]. apply costs_on_exn; [|apply gratis_storage_dtor]. apply (Hb t w1 q cs); [done|done|done|].
  apply values_Some in Ev as ->. by rewrite fmap_length.
Qed.
Ltac all_free := match goal with |- costs ?p ?w 0 => cut (gratis p); [let G := fresh in intros G; apply G|] end.
Lemma gratis_swap x y : gratis (str_swap x y).
Proof. unfold str_swap. apply gratis_noexcept. case_decide; [free|]. free'. Qed.
Lemma gratis_shrink x : gratis (str_shrink_to_fit x).
Proof. unfold str_shrink_to_fit. free'. Qed.

Lemma step_costs o w m : wf w m → sstep (inline w) o m ≠ Bad → costs (sexec o) w (allocations o m).
Proof.
  intros (ρ & H & Hr) Hb. destruct o; cbn [sexec allocations]; unfold obs_unit, obs_nat, obs_char, obs_bool; (apply costs_last; [|intros ?; free]);
    cbn [sstep] in Hb; unfold supd, snew, sinput in Hb.
  - apply costs_noexcept, gratis_storage_default.
  - apply costs_new_range.
  - destruct (m !! x) eqn:Ex; [done|]. eapply new_input_costs; [done|by eapply rel_none].
  - destruct (m !! x) eqn:Ex; [done|]. destruct (m !! y) as [k|] eqn:Ey; [|done]. destruct (rel_get _ _ _ _ Hr Ey) as (s & Hs & Hl).
    unfold str_new_copy, as_view, slen. rewrite Ey. apply costs_first; [free2|]. intros r w1 E. unfold bind in E.
    rewrite (str_size_eq _ _ _ _ H Hs), (proj1 Hl) in E. injection E as <- <-. apply costs_new_range.
  - apply costs_noexcept, gratis_storage_move_new.
  - apply costs_new_fill.
  - apply costs_noexcept, gratis_storage_dtor.
  - apply costs_concat.
  - destruct (m !! y) as [k|] eqn:Ey; [|done]. destruct (rel_get _ _ _ _ Hr Ey) as (s & Hs & Hl). unfold str_copy_assign. case_decide.
    + all_free. free.
    + unfold as_view, slen. rewrite Ey. apply costs_first; [free2|]. intros r w1 E. unfold bind in E.
      rewrite (str_size_eq _ _ _ _ H Hs), (proj1 Hl) in E. injection E as <- <-. apply costs_assign_range.
  - apply costs_noexcept, gratis_storage_move_assign.
  - apply costs_assign_range.
  - rewrite <-(Nat.add_0_r (blocks _)). eapply costs_with_input; [exact H|]. intros t w1 q cs _ _ _ _. apply gratis_storage_move_assign.
  - apply costs_assign_no_aliasing. apply gratis_fill_list.
  - apply costs_assign_no_aliasing. apply gratis_fill_count.
  - unfold slen. destruct (m !! x) as [k|] eqn:Ex; [|done]. destruct (rel_get _ _ _ _ Hr Ex) as (s & Hs & Hl). by eapply costs_append_range.
  - unfold slen. destruct (m !! x) as [k|] eqn:Ex; [|done]. destruct (rel_get _ _ _ _ Hr Ex) as (s & Hs & Hl).
    eapply costs_with_input; [exact H|]. intros t w1 q cs Ht H1 Hq <-. eapply costs_at; [eapply str_size_eq; [exact H1|by rewrite lookup_insert]|].
    rewrite (proj1 Hq). eapply costs_append_no_aliasing; [exact H1|by rewrite lookup_insert_ne by congruence|done|]. intros ?. apply gratis_fill_str.
  - unfold slen. destruct (m !! x) as [k|] eqn:Ex; [|done]. destruct (rel_get _ _ _ _ Hr Ex) as (s & Hs & Hl).
    eapply costs_append_no_aliasing; [done..|]. intros ?. apply gratis_fill_list.
  - unfold slen. destruct (m !! x) as [k|] eqn:Ex; [|done]. destruct (rel_get _ _ _ _ Hr Ex) as (s & Hs & Hl).
    eapply costs_append_no_aliasing; [done..|]. intros ?. apply gratis_fill_count.
  - unfold slen. destruct (m !! x) as [k|] eqn:Ex; [|done]. destruct (rel_get _ _ _ _ Hr Ex) as (s & Hs & Hl). by eapply costs_insert_range.
  - unfold slen. destruct (m !! x) as [k|] eqn:Ex; [|done]. destruct (rel_get _ _ _ _ Hr Ex) as (s & Hs & Hl).
    eapply costs_with_input; [exact H|]. intros t w1 q cs Ht H1 Hq <-. eapply costs_at; [eapply str_size_eq; [exact H1|by rewrite lookup_insert]|].
    rewrite (proj1 Hq). eapply costs_insert_no_aliasing; [exact H1|by rewrite lookup_insert_ne by congruence|done|]. apply gratis_fill_str.
  - unfold slen. destruct (m !! x) as [k|] eqn:Ex; [|done]. destruct (rel_get _ _ _ _ Hr Ex) as (s & Hs & Hl).
    eapply costs_insert_no_aliasing; [done..|]. apply gratis_fill_list.
  - unfold slen. destruct (m !! x) as [k|] eqn:Ex; [|done]. destruct (rel_get _ _ _ _ Hr Ex) as (s & Hs & Hl).
    eapply costs_insert_no_aliasing; [done..|]. apply gratis_fill_count.
  - unfold slen. destruct (m !! x) as [k|] eqn:Ex; [|done]. destruct (rel_get _ _ _ _ Hr Ex) as (s & Hs & Hl). by eapply costs_replace_range.
  - unfold slen. destruct (m !! x) as [k|] eqn:Ex; [|done]. destruct (rel_get _ _ _ _ Hr Ex) as (s & Hs & Hl).
    eapply costs_with_input; [exact H|]. intros t w1 q cs Ht H1 Hq <-. eapply costs_at; [eapply str_size_eq; [exact H1|by rewrite lookup_insert]|].
    rewrite (proj1 Hq). eapply costs_replace_no_aliasing; [exact H1|by rewrite lookup_insert_ne by congruence|done|]. intros ?. apply gratis_fill_str.
  - unfold slen. destruct (m !! x) as [k|] eqn:Ex; [|done]. destruct (rel_get _ _ _ _ Hr Ex) as (s & Hs & Hl).
    eapply costs_replace_no_aliasing; [done..|]. intros ?. apply gratis_fill_list.
  - unfold slen. destruct (m !! x) as [k|] eqn:Ex; [|done]. destruct (rel_get _ _ _ _ Hr Ex) as (s & Hs & Hl).
    eapply costs_replace_no_aliasing; [done..|]. intros ?. apply gratis_fill_count.
  - apply gratis_erase.
  - apply costs_noexcept, gratis_erase.
  - unfold slen. destruct (m !! x) as [k|] eqn:Ex; [|done]. destruct (rel_get _ _ _ _ Hr Ex) as (s & Hs & Hl).
    destruct (push_back_costs w ρ x s k c H Hs Hl) as [Hc _]. eapply costs_mono; [exact Hc|].
    pose proof (rep_cap Hcfg _ _ _ _ H Hs) as [Hcap _]. unfold block. repeat case_decide; lia.
  - all_free. unfold str_pop_back. free2.
  - apply costs_reserve.
  - apply costs_resize.
  - apply costs_resize_fill.
  - apply gratis_shrink.
  - all_free. unfold str_clear. free2.
  - apply gratis_swap.
  - unfold slen. destruct (m !! z) eqn:Ez; [done|]. destruct (m !! x) as [k|] eqn:Ex; [|done]. destruct (rel_get _ _ _ _ Hr Ex) as (s & Hs & Hl).
    unfold str_substr_tail. eapply costs_at; [by eapply str_size_eq|]. rewrite (proj1 Hl). apply (costs_new_range z (RSub x i (length k - i))).
  - apply (costs_new_range z (RSub x i n)).
  - all_free. unfold str_substr_tail_move. apply gratis_noexcept. apply gratis_bind; [apply gratis_erase|]. intros ?. apply gratis_noexcept, gratis_storage_move_new.
  - all_free. unfold str_substr_move. apply gratis_noexcept. apply gratis_bind; [free2|]. intros ?.
    apply gratis_bind; [apply gratis_erase|]. intros ?. apply gratis_bind; [apply gratis_erase|]. intros ?. apply gratis_noexcept, gratis_storage_move_new.
  - all_free. unfold str_set. free2.
  - all_free. unfold str_at, str_index. free2.
  - all_free. unfold str_index. free2.
  - all_free. unfold str_front, str_index. free2.
  - all_free. unfold str_back, str_index. free2.
  - all_free. unfold str_c_str, str_index. free2.
  - all_free. free2.
  - all_free. unfold str_empty. free2.
Qed.
(** the other way round *)
Lemma new_input_grows w m x l r w' : wf w m → m !! x = None → sexec (SNewInput x l) w = Ok r w' →
  nalloc w ≤ nalloc w' ∧ length l ≤ (nalloc w' - nalloc w + 1) * footprint.
Proof.
  intros (ρ & H & Hr) Hx E. cbn [sexec] in E. unfold obs_unit, bind in E. destruct (str_new_input x l w) as [[] w2|e w2|f|] eqn:E2; try done.
  injection E as _ <-. destruct (default_eq w ρ x H (rel_none _ _ _ Hr Hx)) as (w1 & E1 & (_ & Ha & _) & H1).
  unfold str_new_input, construct_str, bind in E2. rewrite E1 in E2. unfold on_exn in E2.
  destruct (push_all x l w1) as [[] w3|e w3|f|] eqn:E3; try done; [|by destruct (storage_dtor x w3)]. injection E2 as ->.
  pose proof (push_all_grows x l w1 _ raw0 [] w2 0 H1 (lookup_insert _ _ _) holds_raw0) as Hg. destruct fp_pos as [? Ef].
  destruct Hg as [Hle Hlen]; [unfold cap, raw0; cbn [r_cells length]; rewrite replicate_length; lia|done|].
  rewrite <-Ha. cbn [length] in Hlen. split; [done|]. lia.
Qed.
(** assign in place or through a new string *)
Lemma gratis_same {A} (p : M world A) w x w' : gratis p → p w = Ok x w' → nalloc w' = nalloc w.
Proof. intros G E. specialize (G w). unfold costs in G. rewrite E in G. lia. Qed.
Lemma storage_new_big x n w w' : sso_size < n → storage_new x n w = Ok tt w' → nalloc w' = S (nalloc w).
Proof.
  intros Hn E. unfold storage_new in E. apply Nat.ltb_lt in Hn. rewrite Hn in E. unfold bind at 1, this_module in E.
  unfold bind at 1 in E. destruct (new_char (wadd (heap_cap n) 1) w) as [b w1|e w1|f|] eqn:E1; try done.
  assert (nalloc w1 = S (nalloc w)) as <-. { unfold new_char in E1. case_match; [done|]. by injection E1 as _ <-. }
  eapply gratis_same; [|exact E]. free'.
Qed.
Lemma new_from_big x s w w' : sso_size < s.2 → str_new_from x s w = Ok tt w' → nalloc w' = S (nalloc w).
Proof.
  intros Hn E. unfold str_new_from, construct_str in E. unfold bind at 1 in E.
  destruct (storage_default x w) as [? w1|e w1|f|] eqn:E1; try done. apply gratis_same in E1; [|apply gratis_storage_default]. rewrite <-E1.
  unfold on_exn in E. destruct (bind _ _ w1) as [[] w5|e w5|f|] eqn:E5 in E; [|by destruct (storage_dtor x w5)|done|done]. injection E as ->.
  unfold bind at 1 in E5. destruct (storage_assign x s.2 w1) as [? w2|e w2|f|] eqn:E2; try done.
  apply gratis_same in E5; [|free2]. rewrite E5. unfold storage_assign in E2. unfold bind at 1, temp_name in E2.
  unfold bind at 1 in E2. match type of E2 with context [storage_new ?t s.2 w1] => destruct (storage_new t s.2 w1) as [[] w3|e w3|f|] eqn:E3; try done end.
  apply storage_new_big in E3; [|done]. rewrite <-E3. eapply gratis_same; [|exact E2]. apply gratis_commit.
Qed.
Lemma assign_range_new w m x l r vs c w' : wf w m → m !! x = Some l → srange m r = Some vs → str_capacity x w = Ok c w →
  sso_size < length vs → c < length l + length vs → str_assign_range x r w = Ok tt w' → nalloc w' = S (nalloc w).
Proof.
  intros (ρ & H & Hr) Hl Hv Hc Hbig Hlt E. destruct (rel_get _ _ _ _ Hr Hl) as (s & Hs & Hh).
  rewrite (str_capacity_eq _ _ _ _ H Hs) in Hc. injection Hc as Hc.
  destruct (bind_range_eq Hcfg w ρ m r vs H (λ y l', rel_get _ _ y l' Hr) Hv) as (f & Ef & _ & Hlen & Hpd).
  pose proof (rep_cap Hcfg _ _ _ _ H Hs) as [_ Hmax]. pose proof (holds_cap _ _ Hh).
  unfold str_assign_range in E. unfold bind at 1 in E. rewrite Ef in E. unfold bind at 1 in E. rewrite (str_size_eq _ _ _ _ H Hs) in E.
  unfold bind at 1 in E. rewrite (str_capacity_eq _ _ _ _ H Hs), (proj1 Hh) in E. cbn [snd] in E.
  pose proof (ptrdiff_half ltac:(apply Hcfg)). rewrite wadd_small in E by lia. destruct (Nat.leb_spec (length vs + length l) (cap s)); [lia|].
  unfold bind at 1, temp_name in E. unfold bind at 1 in E.
  match type of E with context [str_new_from ?t _ w] => destruct (str_new_from t (f, length vs) w) as [[] w3|e w3|g|] eqn:E3; try done end.
  apply new_from_big in E3; [|done]. rewrite <-E3. eapply gratis_same; [|exact E]. apply gratis_commit.
Qed.
End cost.
