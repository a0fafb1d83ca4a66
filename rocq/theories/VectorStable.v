(** Lemmas for C106. *)
From stdpp Require Import prelude gmap.
From Coq Require Import ZArith Lia.
From Verif Require Import Cpp VectorModel VectorSpec VectorMem VectorProofs VectorOps VectorOps2 VectorOps3
  VectorHistory VectorExtra VectorStableSpec.
Local Open Scope nat_scope.

Section stable.
Context `{C : VecCfg} (Hcfg : cfg_ok).
Notation state := (gmap nat (list V)).

(** ** Programs that do not touch a certain vector *)
Definition left_at (z : nat) (v : vec) {A} (t : res world A) : Prop :=
  match t with Ok _ w' | Exn _ w' => objs w' !! z = Some v | _ => True end.
Definition leaves {A} (z : nat) (p : M world A) : Prop := ∀ w v, objs w !! z = Some v → left_at z v (p w).

Lemma leaves_bind {A B} z (p : M world A) (k : A → M world B) : leaves z p → (∀ a, leaves z (k a)) → leaves z (bind p k).
Proof.
  intros G K w v H. specialize (G w v H). unfold bind. destruct (p w) as [a w'|e w'|f|]; try done. by apply K.
Qed.
Lemma leaves_on_exn {A} z (p : M world A) (h : M world unit) : leaves z p → leaves z h → leaves z (on_exn p h).
Proof.
  intros G K w v H. specialize (G w v H). unfold on_exn. destruct (p w) as [a w'|e w'|f|]; try done.
  specialize (K w' v G). by destruct (h w').
Qed.
Lemma leaves_noexcept {A} z (p : M world A) : leaves z p → leaves z (noexcept p).
Proof. intros G w v H. specialize (G w v H). unfold noexcept. by destruct (p w). Qed.
Lemma leaves_ret {A} z (a : A) : leaves z (ret a).
Proof. intros w v H. exact H. Qed.
Lemma leaves_stuck {A} z f : leaves z (stuck f : M world A).
Proof. intros w v H. exact I. Qed.
Lemma leaves_throw {A} z e : leaves z (throw e : M world A).
Proof. intros w v H. exact H. Qed.
Ltac prim := intros w v H; unfold left_at; repeat case_match; try done; simplify_eq; done.
Lemma leaves_get_block z q : leaves z (get_block q).
Proof. unfold get_block. prim. Qed.
Lemma leaves_put_block z b c : leaves z (put_block b c).
Proof. intros w v H. exact H. Qed.
Lemma leaves_get_vec z x : leaves z (get_vec x).
Proof. unfold get_vec. prim. Qed.
Lemma leaves_put_vec z x v : x ≠ z → leaves z (put_vec x v).
Proof. intros Hn w v' H. cbn [put_vec left_at objs with_objs]. by rewrite lookup_insert_ne. Qed.
Lemma leaves_del_vec z x : x ≠ z → leaves z (del_vec x).
Proof. intros Hn w v' H. cbn [del_vec left_at objs with_objs]. by rewrite lookup_delete_ne. Qed.
Lemma leaves_temp {A} z (k : nat → M world A) : (∀ t, t ≠ z → leaves z (k t)) → leaves z (bind temp_name k).
Proof.
  intros K w v H. apply K; [|done]. intros E. pose proof (is_fresh (dom (objs w))) as F.
  rewrite E in F. apply F, elem_of_dom. by exists v.
Qed.
Lemma leaves_this_module z : leaves z this_module.
Proof. intros w v H. exact H. Qed.
Lemma leaves_calloc z n : leaves z (calloc n).
Proof. unfold calloc. prim. Qed.
Lemma leaves_free z k p : leaves z (free k p).
Proof. unfold free. destruct p as [b|]; [|apply leaves_ret]. prim. Qed.
Lemma leaves_ctor z : leaves z ctor.
Proof. unfold ctor. prim. Qed.
Lemma leaves_relocated z : leaves z relocated.
Proof. intros w v H. exact H. Qed.

Ltac basic := first
  [ apply leaves_get_block | apply leaves_put_block | apply leaves_get_vec | apply leaves_this_module
  | apply leaves_calloc | apply leaves_free | apply leaves_ctor | apply leaves_relocated | apply leaves_ret
  | apply leaves_stuck | apply leaves_throw | (apply leaves_put_vec; by auto) | (apply leaves_del_vec; by auto) ].
Ltac walk := repeat first
  [ basic | assumption
  | match goal with |- ∀ _, _ => intros ? end
  | apply leaves_noexcept | apply leaves_on_exn | apply leaves_bind | case_match ].

Lemma leaves_rd z q : leaves z (rd q).
Proof. unfold rd. walk. Qed.
Lemma leaves_construct z q a : leaves z (construct q a).
Proof. unfold construct. walk. Qed.
Lemma leaves_destroy z q : leaves z (destroy q).
Proof. unfold destroy. walk. Qed.
Lemma leaves_store z q a : leaves z (store q a).
Proof. unfold store. walk. Qed.
Lemma leaves_rd_src z s : leaves z (rd_src s).
Proof. destruct s; [apply leaves_ret|apply leaves_rd]. Qed.
Ltac walk1 := repeat first
  [ apply leaves_rd | apply leaves_construct | apply leaves_destroy | apply leaves_store | apply leaves_rd_src
  | basic | assumption
  | match goal with |- ∀ _, _ => intros ? end
  | apply leaves_noexcept | apply leaves_on_exn | apply leaves_bind | case_match ].
Lemma leaves_destroy_n z n : ∀ q, leaves z (destroy_n q n).
Proof. induction n as [|n IH]; intros q; cbn [destroy_n]; [apply leaves_ret|]. apply leaves_bind; [apply leaves_destroy|auto]. Qed.
Lemma leaves_uninit_loop z from p n : ∀ k, leaves z (uninit_loop from p k n).
Proof.
  induction n as [|n IH]; intros k; cbn [uninit_loop]; [apply leaves_ret|]. apply leaves_bind; [|auto].
  apply leaves_on_exn; [walk1|apply leaves_destroy_n].
Qed.
Lemma leaves_uninit z from p n : leaves z (uninit from p n).
Proof. apply leaves_uninit_loop. Qed.
Lemma leaves_uninit_move_n z n : ∀ s d, leaves z (uninit_move_n s n d).
Proof.
  induction n as [|n IH]; intros s d; cbn [uninit_move_n]; [apply leaves_ret|].
  repeat first [apply IH | apply leaves_rd | apply leaves_construct | apply leaves_store | apply leaves_relocated
    | apply leaves_bind | match goal with |- ∀ _, _ => intros ? end].
Qed.
Lemma leaves_move_range z n : ∀ s d, leaves z (move_range s n d).
Proof.
  induction n as [|n IH]; intros s d; cbn [move_range]; [apply leaves_ret|].
  apply leaves_bind; [unfold move_assign_elem; walk1|auto].
Qed.
Lemma leaves_uninit_move_from z n : ∀ s d, leaves z (uninit_move_from s d n).
Proof.
  induction n as [|n IH]; intros s d; cbn [uninit_move_from]; [apply leaves_ret|].
  repeat first [apply IH | apply leaves_rd | apply leaves_construct | apply leaves_store
    | apply leaves_bind | match goal with |- ∀ _, _ => intros ? end].
Qed.
Lemma leaves_rotate z p a b c : leaves z (rotate p a b c).
Proof. unfold rotate. walk1. Qed.
Lemma leaves_emplace_at z s q : leaves z (emplace_at s q).
Proof. unfold emplace_at. walk1. Qed.
Lemma leaves_bind_arg z a : leaves z (bind_arg a).
Proof. unfold bind_arg. walk1. Qed.
Lemma leaves_bind_earg z a : leaves z (bind_earg a).
Proof. unfold bind_earg. destruct a; [apply leaves_bind; [apply leaves_bind_arg|]|]; walk1. Qed.
Lemma leaves_bind_range z r : leaves z (bind_range r).
Proof. unfold bind_range. walk1. Qed.
Lemma leaves_storage_new z n : leaves z (storage_new n).
Proof. unfold storage_new. walk1. Qed.
Lemma leaves_storage_dtor z v : leaves z (storage_dtor v).
Proof. unfold storage_dtor. destruct (v_dealloc v); [|walk1]. apply leaves_bind; [apply leaves_destroy_n|walk1]. Qed.

Ltac walk2 := repeat first
  [ apply leaves_rd | apply leaves_construct | apply leaves_destroy | apply leaves_store | apply leaves_rd_src
  | apply leaves_destroy_n | apply leaves_uninit | apply leaves_uninit_move_n | apply leaves_move_range
  | apply leaves_uninit_move_from | apply leaves_rotate | apply leaves_emplace_at | apply leaves_bind_arg
  | apply leaves_bind_earg | apply leaves_bind_range | apply leaves_storage_new | apply leaves_storage_dtor
  | basic | assumption
  | match goal with |- ∀ _, _ => intros ? end
  | apply leaves_noexcept | apply leaves_on_exn | apply leaves_bind | case_match ].
Lemma leaves_storage_take z x v : x ≠ z → leaves z (storage_take x v).
Proof. intros Hn. unfold storage_take. walk2. Qed.
Lemma leaves_commit z x v : x ≠ z → leaves z (commit x v).
Proof. intros Hn. unfold commit. apply leaves_bind; [by apply leaves_storage_take|intros]. apply leaves_storage_dtor. Qed.
Lemma leaves_assign_impl z x n f : x ≠ z → (∀ q, leaves z (f q)) → leaves z (assign_impl x n f).
Proof.
  intros Hn Hf. unfold assign_impl. apply leaves_bind; [walk2|intros v]. cbn zeta. case_match.
  - apply leaves_bind; [apply Hf|]. walk2.
  - apply leaves_bind; [walk2|intros t]. apply leaves_bind; [apply leaves_on_exn; [apply Hf|walk2]|intros _].
    by apply leaves_commit.
Qed.
Lemma leaves_insert_impl z x off n f : x ≠ z → (∀ q, leaves z (f q)) → leaves z (insert_impl x off n f).
Proof.
  intros Hn Hf. unfold insert_impl. apply leaves_bind; [walk2|intros v]. cbn zeta.
  apply leaves_bind; [|walk2]. case_match.
  - apply leaves_bind; [apply Hf|]. walk2.
  - apply leaves_bind; [walk2|intros t]. apply leaves_bind; [apply leaves_on_exn; [apply Hf|walk2]|intros _].
    apply leaves_bind; [walk2|intros _]. apply leaves_bind; [walk2|intros _]. by apply leaves_commit.
Qed.
Lemma leaves_erase z x i j : x ≠ z → leaves z (vec_erase x i j).
Proof. intros Hn. unfold vec_erase. walk2. Qed.
Lemma leaves_resize_impl z x n f : x ≠ z → (∀ q k, leaves z (f q k)) → leaves z (resize_impl x n f).
Proof.
  intros Hn Hf. unfold resize_impl. apply leaves_bind; [walk2|intros v]. cbn zeta. case_match; [walk2|]. case_match.
  - apply leaves_bind; [by apply leaves_erase|walk2].
  - apply leaves_bind; [walk2|intros t]. apply leaves_bind; [apply leaves_on_exn; [apply Hf|walk2]|intros _].
    apply leaves_bind; [walk2|intros _]. by apply leaves_commit.
Qed.
Lemma leaves_assign_range z x r : x ≠ z → leaves z (vec_assign_range x r).
Proof. intros Hn. unfold vec_assign_range. apply leaves_bind; [walk2|intros s]. apply leaves_assign_impl; [done|walk2]. Qed.
Lemma leaves_push_back z x a : x ≠ z → leaves z (vec_push_back x a).
Proof.
  intros Hn. unfold vec_push_back. apply leaves_bind; [walk2|intros s]. apply leaves_bind; [walk2|intros v].
  apply leaves_insert_impl; [done|walk2].
Qed.
Lemma leaves_push_all z x l : x ≠ z → leaves z (push_all x l).
Proof.
  intros Hn. induction l as [|a l IH]; cbn [push_all]; [walk2|]. apply leaves_bind; [by apply leaves_push_back|auto].
Qed.
Lemma leaves_destroy_vec z x : x ≠ z → leaves z (vec_destroy x).
Proof. intros Hn. unfold vec_destroy. walk2. Qed.
Lemma leaves_construct_vec z x p : x ≠ z → leaves z p → leaves z (construct_vec x p).
Proof.
  intros Hn Hp. unfold construct_vec. apply leaves_bind; [walk2|intros _]. apply leaves_on_exn; [done|].
  by apply leaves_destroy_vec.
Qed.
Lemma leaves_new_input z x l : x ≠ z → leaves z (vec_new_input x l).
Proof. intros Hn. unfold vec_new_input. apply leaves_construct_vec; [done|]. by apply leaves_push_all. Qed.
Lemma leaves_move_assign z x y : x ≠ z → y ≠ z → leaves z (vec_move_assign x y).
Proof.
  intros Hx Hy. unfold vec_move_assign. case_match; [walk2|]. apply leaves_bind; [walk2|intros v].
  apply leaves_bind; [by apply leaves_storage_take|walk2].
Qed.
Lemma leaves_resize z x n : x ≠ z → leaves z (vec_resize x n).
Proof. intros Hn. unfold vec_resize. apply leaves_resize_impl; [done|walk2]. Qed.
Lemma leaves_resize_fill z x n a : x ≠ z → leaves z (vec_resize_fill x n a).
Proof. intros Hn. unfold vec_resize_fill. apply leaves_bind; [walk2|intros s]. apply leaves_resize_impl; [done|walk2]. Qed.
Lemma leaves_new_range z x r : x ≠ z → leaves z (vec_new_range x r).
Proof. intros Hn. unfold vec_new_range. apply leaves_construct_vec; [done|]. by apply leaves_assign_range. Qed.

(** the vectors whose members a call writes *)
Definition edits (o : vop) : list nat :=
  match o with
  | VNew x | VNewRange x _ | VNewCopy x _ | VNewInput x _ | VNewCount x _ | VNewFill x _ _ | VDestroy x
  | VCopyAssign x _ | VAssignRange x _ | VAssignFill x _ _ | VAssignInput x _ | VPushBack x _ | VEmplace x _ _
  | VInsertFill x _ _ _ | VInsertRange x _ _ | VInsertInput x _ _ | VPopBack x | VErase x _ _ | VErase1 x _
  | VReserve x _ | VResize x _ | VResizeFill x _ _ | VShrink x | VClear x => [x]
  | VNewMove x y | VMoveAssign x y | VSwap x y => [x; y]
  | VSet _ _ _ | VAt _ _ | VIndex _ _ | VFront _ | VBack _ | VSize _ | VEmpty _ => []
  end.
Lemma leaves_call o z : z ∉ edits o → leaves z (vexec o).
Proof.
  intros Hz. destruct o; cbn [edits] in Hz; cbn [vexec]; unfold obs_unit, obs_nat, obs_val, obs_bool;
    repeat (apply not_elem_of_cons in Hz as [?Hz Hz]);
    repeat match goal with H : z ≠ _ |- _ => apply not_eq_sym in H end;
    (apply leaves_bind; [|intros; apply leaves_ret]).
  - unfold vec_new. walk2.
  - by apply leaves_new_range.
  - unfold vec_new_copy. apply leaves_bind; [walk2|intros v]. by apply leaves_new_range.
  - unfold vec_new_move. walk2.
  - by apply leaves_new_input.
  - unfold vec_new_count. apply leaves_construct_vec; [done|]. by apply leaves_resize.
  - unfold vec_new_fill. apply leaves_construct_vec; [done|]. by apply leaves_resize_fill.
  - by apply leaves_destroy_vec.
  - unfold vec_copy_assign. case_match; [walk2|]. apply leaves_bind; [walk2|intros v]. by apply leaves_assign_range.
  - by apply leaves_move_assign.
  - by apply leaves_assign_range.
  - unfold vec_assign_fill. apply leaves_bind; [walk2|intros s]. apply leaves_assign_impl; [done|walk2].
  - unfold vec_assign_input. apply leaves_temp. intros t Ht. apply leaves_bind; [by apply leaves_new_input|intros _].
    apply leaves_bind; [by apply leaves_move_assign|intros _]. by apply leaves_destroy_vec.
  - by apply leaves_push_back.
  - unfold vec_emplace. apply leaves_bind; [walk2|intros s]. apply leaves_insert_impl; [done|walk2].
  - unfold vec_insert_fill. apply leaves_bind; [walk2|intros s]. apply leaves_insert_impl; [done|walk2].
  - unfold vec_insert_range. apply leaves_bind; [walk2|intros s]. apply leaves_insert_impl; [done|walk2].
  - unfold vec_insert_input. apply leaves_temp. intros t Ht. apply leaves_bind; [by apply leaves_new_input|intros _].
    apply leaves_bind; [|intros r; apply leaves_bind; [by apply leaves_destroy_vec|walk2]].
    apply leaves_on_exn; [|by apply leaves_destroy_vec]. apply leaves_bind; [walk2|intros tv].
    apply leaves_insert_impl; [done|walk2].
  - unfold vec_pop_back. walk2.
  - by apply leaves_erase.
  - by apply leaves_erase.
  - unfold vec_reserve. apply leaves_bind; [walk2|intros v]. case_match; [walk2|]. apply leaves_bind; [walk2|intros t].
    apply leaves_bind; [walk2|intros _]. by apply leaves_commit.
  - by apply leaves_resize.
  - by apply leaves_resize_fill.
  - unfold vec_shrink_to_fit. apply leaves_noexcept. apply leaves_bind; [walk2|intros v]. case_match; [walk2|].
    apply leaves_bind; [walk2|intros t]. apply leaves_bind; [walk2|intros _]. by apply leaves_commit.
  - unfold vec_clear. walk2.
  - unfold vec_swap. walk2.
  - unfold vec_set. walk2.
  - unfold vec_at, vec_index. walk2.
  - unfold vec_index. walk2.
  - unfold vec_front, vec_index. walk2.
  - unfold vec_back, vec_index. walk2.
  - unfold vec_size. walk2.
  - unfold vec_empty, vec_size. walk2.
Qed.

(** ** Calls that modify the vector *)
Lemma insert_room x off n f w v r w' : objs w !! x = Some v → wadd (v_siz v) n ≤ v_cap v → (∀ q, leaves x (f q)) →
  insert_impl x off n f w = Ok r w' → objs w' !! x = Some (set_size v (v_siz v + n)).
Proof.
  intros Hx Hfit Hf. unfold insert_impl. erewrite bind_ok by by apply get_vec_eq. cbn zeta.
  destruct (Nat.leb_spec (wadd (v_siz v) n) (v_cap v)); [|lia]. unfold bind at 1 2 3.
  destruct (f (v_ptr v, v_siz v) w) as [u w1|e w1|g|]; try done.
  destruct (rotate (v_ptr v) off (v_siz v) (v_siz v + n) w1) as [u2 w2|e w2|g|]; try done.
  cbn. intros [= <- <-]. cbn [objs with_objs]. by rewrite lookup_insert.
Qed.
Lemma insert_input_room x off vs w m l v r w' : wf w m → m !! x = Some l → objs w !! x = Some v →
  v_siz v + length vs ≤ v_cap v → vec_insert_input x off vs w = Ok r w' →
  ∃ s, objs w' !! x = Some (set_size v s).
Proof.
  intros Hw Hl Hx Hfit. unfold vec_insert_input, temp_name. erewrite bind_ok by done.
  pose proof (temp_fresh _ _ Hw) as Ht. remember (fresh (dom (objs w))) as t eqn:Et. clear Et.
  assert (Hxt : x ≠ t) by congruence.
  pose proof (new_input_run Hcfg t vs w m Hw Ht) as Hn. unfold run_to in Hn.
  unfold bind at 1. destruct (vec_new_input t vs w) as [u w1|e w1|g|]; try done.
  destruct Hn as (Hw1 & _ & v1 & Ho).
  assert (Hx1 : objs w1 !! x = Some v) by (rewrite Ho; by rewrite lookup_insert_ne).
  assert (Hl1 : <[t:=vs]> m !! x = Some l) by by rewrite lookup_insert_ne.
  assert (Ht1 : objs w1 !! t = Some v1) by (rewrite Ho; by rewrite lookup_insert).
  assert (Hs1 : v_siz v1 = length vs).
  { eapply vrep_siz. eapply wf_rep; [exact Hw1|exact Ht1|]. by rewrite lookup_insert. }
  unfold bind at 1, on_exn. erewrite bind_ok by by apply get_vec_eq. rewrite Hs1.
  destruct (insert_impl x off (length vs) _ w1) as [r2 w2|e w2|g|] eqn:E; try done.
  2:{ by destruct (vec_destroy t w2). }
  eapply insert_room in E; [|exact Hx1|by eapply (fits_wadd Hcfg)|intros; apply leaves_uninit_move_from].
  unfold bind at 1. pose proof (leaves_destroy_vec x t (not_eq_sym Hxt) w2 _ E) as Hd. unfold left_at in Hd.
  destruct (vec_destroy t w2) as [u3 w3|e w3|g|]; try done.
  intros [= <- <-]. eauto.
Qed.

(** the vector that an element ends up in has the buffer that it was in *)
Lemma heir_buffer o w m x y i v r w' : wf w m → sstep o m ≠ Bad → objs w !! x = Some v → i < v_siz v →
  heir o m (v_siz v) (v_cap v) x i = Some y → ¬ grows o x (v_siz v) → vexec o w = Ok r w' →
  ∃ v', objs w' !! y = Some v' ∧ v_ptr v' = v_ptr v.
Proof.
  intros Hw Hb Hx Hi Hy Hg He.
  destruct (inv_some _ _ _ (proj1 Hw) _ _ Hx) as (l & Hl & Hr). pose proof (vrep_siz _ _ _ Hr) as Hs.
  destruct (decide (x ∈ edits o)) as [Hin|Hout].
  2:{ pose proof (leaves_call o x Hout w v Hx) as H. unfold left_at in H. rewrite He in H. exists v. split; [|done].
      assert (y = x) as ->; [|done].
      destruct o; cbn [edits] in Hout; cbn [heir] in Hy; unfold remains, exchanged, handed_over in Hy;
        repeat (apply not_elem_of_cons in Hout as [? Hout]); repeat case_decide; simplify_eq; done. }
  assert (Hput : ∀ n, puts o m = Some (x, n) → v_siz v + n ≤ v_cap v → y = x →
    ∃ v', objs w' !! y = Some v' ∧ v_ptr v' = v_ptr v).
  { intros n Hp Hfit ->. pose proof (stays_step Hcfg o w m x n v Hw Hb Hp Hx Hfit) as H. rewrite He in H.
    destruct H as (s & Ho & _). rewrite Ho, lookup_insert. eexists. split; [done|]. done. }
  pose proof (call_ok Hcfg o w m Hw Hb) as Hok. rewrite He in Hok. destruct Hok as (m' & Hd & Hw' & _).
  destruct o as [z|z rg|z z2|z z2|z vs|z n|z n a|z|z z2|z z2|z rg|z n a|z vs|z a|z p a|z p n a|z p rg|z p vs|z|z p q|z p|z n|z n|z n a|z|z|z z2|z p a|z p|z p|z|z|z|z];
    cbn [edits] in Hin; cbn [heir] in Hy; unfold remains, exchanged, handed_over in Hy; cbn [sstep] in Hb; cbn [vexec] in He;
    try (apply elem_of_list_singleton in Hin; subst z; rewrite ?decide_True in Hy by done);
    try (unfold snew in Hb; rewrite Hl in Hb; done); try (by apply elem_of_nil in Hin); try done.
  - (* move construction *)
    destruct (m !! z) eqn:Hz; [done|]. destruct (m !! z2) as [k|] eqn:Hk; [|done].
    destruct (wf_get _ _ _ _ Hw Hk) as (b & Hb' & _).
    pose proof (new_move_run z z2 w m k b never Hw Hz Hk Hb') as H. unfold run_to in H. unfold obs_unit, bind in He.
    destruct (vec_new_move z z2 w) as [u w1|e w1|g|]; try done. injection He as <- <-. destruct H as (_ & _ & Ho & _).
    assert (z ≠ z2) by congruence. assert (x = z2) as ->.
    { apply elem_of_cons in Hin as [->|Hin%elem_of_list_singleton]; [congruence|done]. }
    rewrite decide_False, decide_True in Hy by done. injection Hy as <-. exists b. rewrite Ho, lookup_insert.
    split; [done|]. congruence.
  - (* copy assignment *)
    case_bool_decide; [|done]. subst z2. injection Hy as <-. unfold vec_copy_assign in He.
    rewrite decide_True in He by done. unfold obs_unit in He. erewrite bind_ok in He.
    2:{ erewrite bind_ok by by apply get_vec_eq. done. }
    injection He as <- <-. eauto.
  - (* move assignment *)
    destruct (m !! z) as [lz|] eqn:Hz; [|done]. destruct (m !! z2) as [k|] eqn:Hk; [|done].
    destruct (wf_get _ _ _ _ Hw Hk) as (b & Hb' & _). destruct (wf_get _ _ _ _ Hw Hz) as (a & Ha' & _).
    pose proof (move_assign_run z z2 w m lz k a b never Hw Hz Hk Ha' Hb') as H. unfold run_to in H. unfold obs_unit, bind in He.
    destruct (vec_move_assign z z2 w) as [u w1|e w1|g|]; try done. injection He as <- <-. destruct H as (_ & _ & Ho & _).
    destruct (decide (z = z2)) as [->|Hn].
    { injection Hy as <-. rewrite Ho. eauto. }
    apply elem_of_cons in Hin as [->|Hin%elem_of_list_singleton].
    { rewrite decide_False in Hy by done. rewrite decide_True in Hy by done. done. }
    subst z2. rewrite decide_True in Hy by done. injection Hy as <-. exists b.
    rewrite Ho, lookup_insert_ne, lookup_insert by done. split; [done|]. congruence.
  - (* push_back *)
    case_match eqn:E; [|done]. apply Nat.leb_le in E. injection Hy as <-. by apply (Hput 1).
  - (* emplace *)
    case_match eqn:E; [|done]. apply andb_true_iff in E as [E _]. apply Nat.leb_le in E. injection Hy as <-. by apply (Hput 1).
  - case_match eqn:E; [|done]. apply andb_true_iff in E as [E _]. apply Nat.leb_le in E. injection Hy as <-. by apply (Hput n).
  - case_match eqn:E; [|done]. apply andb_true_iff in E as [E _]. apply Nat.leb_le in E. injection Hy as <-.
    by apply (Hput (rlen m rg)).
  - (* insert from input iterators *)
    case_match eqn:E; [|done]. apply andb_true_iff in E as [E _]. apply Nat.leb_le in E. injection Hy as <-.
    unfold obs_nat, bind in He. destruct (vec_insert_input x p vs w) as [u w1|e w1|g|] eqn:E1; try done.
    injection He as <- <-. destruct (insert_input_room _ _ _ _ _ _ _ _ _ Hw Hl Hx E E1) as [s Hs'].
    rewrite Hs'. eexists. split; [done|]. done.
  - (* pop_back *)
    case_match; [|done]. injection Hy as <-. pose proof (vrep_le _ _ _ Hr). apply (Hput 0); [done|lia|done].
  - case_match; [|done]. injection Hy as <-. pose proof (vrep_le _ _ _ Hr). apply (Hput 0); [done|lia|done].
  - case_match; [|done]. injection Hy as <-. pose proof (vrep_le _ _ _ Hr). apply (Hput 0); [done|lia|done].
  - (* reserve *)
    case_match eqn:E; [|done]. apply Nat.leb_le in E. injection Hy as <-.
    pose proof (reserve_run Hcfg x n w m l v Hw Hl Hx) as H. unfold run_to in H. unfold obs_unit, bind in He.
    destruct (vec_reserve x n w) as [u w1|e w1|g|]; try done. injection He as <- <-.
    destruct H as (_ & _ & [[_ ->]|[? _]]); [|lia]. eauto.
  - (* resize *)
    case_match eqn:E0; [|done]. injection Hy as <-. cbn [grows] in Hg.
    pose proof (resize_run Hcfg x n w m l v Hw Hl Hx) as H. unfold run_to in H. unfold obs_unit, bind in He.
    destruct (vec_resize x n w) as [u w1|e w1|g|]; try done. injection He as <- <-.
    destruct H as (_ & _ & [[_ (Ho & _)]|[? _]]); [|destruct Hg; lia]. rewrite Ho, lookup_insert. eexists. split; [done|]. done.
  - case_match eqn:E0; [|done]. injection Hy as <-. cbn [grows] in Hg. rewrite Hl in Hb.
    destruct (sarg m a) as [a'|] eqn:Ha; [|done].
    pose proof (resize_fill_run Hcfg x n a a' w m l v Hw Hl Hx Ha) as H. unfold run_to in H. unfold obs_unit, bind in He.
    destruct (vec_resize_fill x n a w) as [u w1|e w1|g|]; try done. injection He as <- <-.
    destruct H as (_ & _ & [[_ (Ho & _)]|[? _]]); [|destruct Hg; lia]. rewrite Ho, lookup_insert. eexists. split; [done|]. done.
  - (* swap *)
    destruct (m !! z) as [lz|] eqn:Hz; [|done]. destruct (m !! z2) as [k|] eqn:Hk; [|done].
    destruct (wf_get _ _ _ _ Hw Hk) as (b & Hb' & _). destruct (wf_get _ _ _ _ Hw Hz) as (a & Ha' & _).
    pose proof (swap_run z z2 w m lz k a b never Hw Hz Hk Ha' Hb') as H. unfold run_to in H. unfold obs_unit, bind in He.
    destruct (vec_swap z z2 w) as [u w1|e w1|g|]; try done. injection He as <- <-. destruct H as (_ & _ & Ho & _).
    rewrite Ho. destruct (decide (x = z)) as [->|Hn].
    + injection Hy as <-. rewrite lookup_insert. exists a. split; [done|]. congruence.
    + apply elem_of_cons in Hin as [->|Hin%elem_of_list_singleton]; [done|]. subst z2.
      rewrite decide_True in Hy by done. injection Hy as <-. rewrite lookup_insert_ne, lookup_insert by done.
      exists b. split; [done|]. congruence.
Qed.

(** and it has an element there *)
Lemma heir_in o m r m' c x y i l : sstep o m = Done r m' → m !! x = Some l → i < length l →
  heir o m (length l) c x i = Some y → ∃ l', m' !! y = Some l' ∧ i < length l'.
Proof.
  intros Hd Hl Hi Hy.
  assert (Hset : ∀ z k, m' = <[z:=k]> m → (z = x → i < length k) → y = x → ∃ l', m' !! y = Some l' ∧ i < length l').
  { intros z k -> Hz ->. destruct (decide (z = x)) as [->|]; [rewrite lookup_insert|rewrite lookup_insert_ne by done]; eauto. }
  assert (Hem : ∀ z p a, semplace m z p a = Done r m' → y = x → ∃ l', m' !! y = Some l' ∧ i < length l').
  { intros z p a H ->. apply semplace_inv in H as (v & m1 & k & Ha & Hk & Hp & -> & ->).
    destruct (decide (z = x)) as [->|Hn].
    - rewrite lookup_insert. eexists. split; [done|]. destruct (after_arg_len _ _ _ _ _ _ Ha Hk) as (l0 & Hl0 & E).
      simplify_eq. unfold insert_at. rewrite !app_length, take_length, drop_length. cbn [length]. lia.
    - rewrite lookup_insert_ne by done. destruct a as [a|z2 j]; cbn [after_arg] in Ha.
      + destruct Ha as [_ ->]. eauto.
      + destruct Ha as (ly & Hly & Hj & ->). destruct (decide (z2 = x)) as [->|].
        * rewrite lookup_insert. eexists. split; [done|]. rewrite insert_length. by simplify_eq.
        * rewrite lookup_insert_ne by done. eauto. }
  assert (Hins : ∀ z p k lz, m !! z = Some lz → m' = <[z:=insert_at p k lz]> m → y = x → ∃ l', m' !! y = Some l' ∧ i < length l').
  { intros z p k lz Hz E. apply (Hset _ _ E). intros ->. simplify_eq. unfold insert_at.
    rewrite !app_length, take_length, drop_length. lia. }
  destruct o as [z|z rg|z z2|z z2|z vs|z n|z n a|z|z z2|z z2|z rg|z n a|z vs|z a|z p a|z p n a|z p rg|z p vs|z|z p q|z p|z n|z n|z n a|z|z|z z2|z p a|z p|z p|z|z|z|z];
    cbn [sstep] in Hd; unfold snew, sget in Hd; cbn [heir] in Hy; unfold remains, exchanged, handed_over in Hy.
  all: repeat match goal with
    | H : match ?q !! ?z with _ => _ end = Done _ _ |- _ => let E := fresh "E" in destruct (q !! z) eqn:E; try done
    | H : match sarg ?q ?z with _ => _ end = Done _ _ |- _ => let E := fresh "E" in destruct (sarg q z) eqn:E; try done
    | H : match srange ?q ?z with _ => _ end = Done _ _ |- _ => let E := fresh "E" in destruct (srange q z) eqn:E; try done
    | H : match replicate _ <$> sarg ?q ?z with _ => _ end = Done _ _ |- _ =>
        let E := fresh "E" in destruct (sarg q z) eqn:E; cbn [fmap option_fmap option_map] in H; try done
    | H : (if decide ?P then Done _ _ else Bad) = Done _ _ |- _ => destruct (decide P); try done
    | H : (if decide ?P then Bad else Done _ _) = Done _ _ |- _ => destruct (decide P); try done
    | H : Done _ _ = Done _ _ |- _ => injection H as <- <-
    | H : Throws _ = Done _ _ |- _ => done
    end.
  all: try (eapply Hem; [done|]; repeat case_match; by simplify_eq).
  all: clear Hset Hem Hins.
  all: repeat match goal with
    | H : context [decide ?P] |- _ => destruct (decide P)
    | |- context [decide ?P] => destruct (decide P)
    | H : context [bool_decide ?P] |- _ => destruct (bool_decide_reflect P)
    | H : context [if ?b then _ else _] |- _ => let E := fresh "E" in destruct b eqn:E
    end; simplify_eq;
    repeat match goal with
    | H : _ && _ = true |- _ => apply andb_true_iff in H as [? ?]
    | H : (_ <=? _) = true |- _ => apply Nat.leb_le in H
    | H : (_ <? _) = true |- _ => apply Nat.ltb_lt in H
    end.
  all: repeat match goal with
    | |- context [<[?a:=_]> _ !! ?b] => first [constr_eq a b; rewrite lookup_insert
        | destruct (decide (a = b)); [subst|rewrite (lookup_insert_ne _ a b) by done]]
    end.
  all: simplify_eq; repeat first [rewrite lookup_insert | rewrite lookup_insert_ne by congruence | rewrite lookup_delete_ne by congruence];
    eexists; (split; [eassumption || reflexivity|]);
    unfold insert_at; rewrite ?app_length, ?insert_length, ?take_length, ?fmap_length, ?drop_length, ?replicate_length; simplify_eq; try lia.
Qed.
End stable.
