(** C109: variants on nested unions do what variants on one slot do. *)
From stdpp Require Import prelude gmap.
From Coq Require Import Lia.
From Verif Require Import Cpp VariantModel UnionModel.
Local Open Scope nat_scope.

Section sim.
Context `{C : VarCfg} (strict : bool).
Notation name := (option nat).

Fixpoint deep (i : nat) (v : V) : chain V := match i with O => CVal v | S i' => CNext (deep i' v) end.
Definition st_rel (s : option (nat * V)) (u : chain V) : Prop :=
  match s with
  | None => empty u = true ∧ (strict = true → u = CNone)
  | Some (i, v) => u = deep i v ∧ (strict = true → i = 0)
  end.
Definition var_rel (o : var) (o' : u_var) : Prop := st_rel (v_storage o) (u_storage o') ∧ v_type o = u_type o'.
Definition slot_rel (a : option var) (b : option u_var) : Prop :=
  match a, b with Some o, Some o' => var_rel o o' | None, None => True | _, _ => False end.
Definition rel (w : world) (w' : u_world) : Prop :=
  (∀ p, slot_rel (objs w !! p) (u_objs w' !! p)) ∧ ncopy w = u_ncopy w' ∧ visits w = u_visits w'.

(** ** Chains *)
Lemma get_deep i v : (strict = true → i = 0) → c_get strict i (deep i v) = inr v.
Proof. induction i as [|i IH]; intros H; [done|]. cbn [c_get deep enter]. apply IH. intros Hs. by specialize (H Hs). Qed.
Lemma store_deep i v v' : (strict = true → i = 0) → c_store strict i v' (deep i v) = inr (deep i v').
Proof.
  induction i as [|i IH]; intros H; [done|]. cbn [c_store deep enter]. rewrite IH; [done|]. intros Hs. by specialize (H Hs).
Qed.
Lemma destroy_deep i v : (strict = true → i = 0) → ∃ u, c_destroy strict i (deep i v) = inr u ∧ empty u = true ∧ (strict = true → u = CNone).
Proof.
  induction i as [|i IH]; intros H; [by exists CNone|]. cbn [c_destroy deep enter].
  destruct IH as (u & -> & He & _); [intros Hs; by specialize (H Hs)|]. exists (CNext u). split_and!; [done|done|].
  intros Hs. by specialize (H Hs).
Qed.
Lemma reach_empty i u : empty u = true → (strict = true → i = 0) → c_reach strict i u = inr tt.
Proof.
  revert u. induction i as [|i IH]; intros u He H; [done|]. cbn [c_reach]. assert (strict = false) as Hs.
  { destruct strict; [|done]. by specialize (H eq_refl). }
  destruct u as [|v|u]; [|done|].
  - replace (enter strict CNone) with (inr CNone : fault + chain V) by (unfold enter; by rewrite Hs). apply IH; [done|]. intros Ht. by rewrite Ht in Hs.
  - cbn [enter]. apply IH; [done|]. intros Ht. by rewrite Ht in Hs.
Qed.
Lemma set_empty i v u : empty u = true → (strict = true → i = 0) → c_set strict i v u = inr (deep i v).
Proof.
  revert u. induction i as [|i IH]; intros u He H.
  - cbn [c_set deep]. by rewrite He.
  - cbn [c_set deep]. assert (strict = false) as Hs.
    { destruct strict; [|done]. by specialize (H eq_refl). }
    destruct u as [|v'|u]; [|done|].
    + replace (enter strict CNone) with (inr CNone : fault + chain V) by (unfold enter; by rewrite Hs). rewrite IH; [done|done|]. intros Ht. by rewrite Ht in Hs.
    + cbn [enter]. rewrite IH; [done|done|]. intros Ht. by rewrite Ht in Hs.
Qed.

(** ** Simulation, from one pair of states *)
Definition sim_at {A} (w : world) (w' : u_world) (m : M world A) (m' : M u_world A) : Prop :=
  match m w with
  | Ok a w1 => ∃ w1', m' w' = Ok a w1' ∧ rel w1 w1'
  | Exn e w1 => ∃ w1', m' w' = Exn e w1' ∧ rel w1 w1'
  | Terminated => m' w' = Terminated
  | Stuck _ => True
  end.
Definition sim {A} (m : M world A) (m' : M u_world A) : Prop := ∀ w w', rel w w' → sim_at w w' m m'.

Lemma sim_at_ret {A} w w' (a : A) : rel w w' → sim_at w w' (ret a) (ret a).
Proof. intros H. unfold sim_at, ret. by exists w'. Qed.
Lemma sim_ret {A} (a : A) : sim (ret a) (ret a).
Proof. intros w w' H. by apply sim_at_ret. Qed.
Lemma sim_throw {A} e : sim (A := A) (throw e) (throw e).
Proof. intros w w' H. unfold sim_at, throw. by exists w'. Qed.
Lemma sim_stuck {A} f (m : M u_world A) : sim (stuck f) m.
Proof. intros w w' H. done. Qed.
Lemma sim_at_bind {A B} w w' (m : M world A) m' (k : A → M world B) k' : sim_at w w' m m' →
  (∀ a w1 w1', m w = Ok a w1 → rel w1 w1' → sim_at w1 w1' (k a) (k' a)) → sim_at w w' (bind m k) (bind m' k').
Proof.
  intros Hm Hk. unfold sim_at, bind in *. destruct (m w) as [a w1|e w1|f|] eqn:E.
  - destruct Hm as (w1' & -> & Hr). by apply (Hk a w1 w1' eq_refl Hr).
  - destruct Hm as (w1' & -> & Hr). by exists w1'.
  - done.
  - by rewrite Hm.
Qed.
Lemma sim_bind {A B} (m : M world A) m' (k : A → M world B) k' : sim m m' → (∀ a, sim (k a) (k' a)) → sim (bind m k) (bind m' k').
Proof. intros Hm Hk w w' H. apply sim_at_bind; [by apply Hm|]. intros a w1 w1' _ H1. by apply Hk. Qed.
Lemma sim_at_noexcept {A} w w' (m : M world A) m' : sim_at w w' m m' → sim_at w w' (noexcept m) (noexcept m').
Proof.
  unfold sim_at, noexcept. destruct (m w) as [a w1|e w1|f|]; [|by intros (? & -> & _)|done|by intros ->].
  intros (w1' & -> & Hr). eauto.
Qed.
Lemma sim_noexcept {A} (m : M world A) m' : sim m m' → sim (noexcept m) (noexcept m').
Proof. intros Hm w w' H. by apply sim_at_noexcept, Hm. Qed.
Lemma sim_at_on_exn {A} w w' (m : M world A) m' c c' : sim_at w w' m m' → sim c c' → sim_at w w' (on_exn m c) (on_exn m' c').
Proof.
  unfold sim_at at 1 2, on_exn. destruct (m w) as [a w1|e w1|f|]; [by intros (w1' & -> & ?); eauto| |done|by intros ->].
  intros (w1' & -> & Hr) Hc. specialize (Hc w1 w1' Hr). unfold sim_at in Hc. destruct (c w1) as [b w2|e2 w2|f|].
  - destruct Hc as (w2' & -> & Hr'). eauto.
  - by destruct Hc as (w2' & -> & _).
  - done.
  - by rewrite Hc.
Qed.
Lemma sim_on_exn {A} (m : M world A) m' c c' : sim m m' → sim c c' → sim (on_exn m c) (on_exn m' c').
Proof. intros Hm Hc w w' H. apply sim_at_on_exn; [by apply Hm|done]. Qed.
Lemma sim_at_dispatch {A} w w' (f : nat → M world A) f' t : sim_at w w' (f t) (f' t) →
  sim_at w w' (dispatch f t) (u_dispatch f' t).
Proof.
  intros H. unfold dispatch, u_dispatch. rewrite !list_lookup_fmap. destruct (seq 0 (length alts) !! t) as [j|] eqn:E; [|done].
  apply lookup_seq in E as [-> _]. done.
Qed.
Lemma sim_dispatch {A} (f : nat → M world A) f' t : sim (f t) (f' t) → sim (dispatch f t) (u_dispatch f' t).
Proof. intros H w w' Hr. by apply sim_at_dispatch, H. Qed.

(** ** Primitives *)
Lemma rel_some w w' p o : rel w w' → objs w !! p = Some o → ∃ o', u_objs w' !! p = Some o' ∧ var_rel o o'.
Proof. intros [H _] Ho. specialize (H p). rewrite Ho in H. destruct (u_objs w' !! p) as [o'|]; [eauto|done]. Qed.
Lemma rel_put w w' p o o' : rel w w' → var_rel o o' →
  rel (World (<[p:=o]> (objs w)) (ncopy w) (visits w)) (UWorld (<[p:=o']> (u_objs w')) (u_ncopy w') (u_visits w')).
Proof.
  intros (H & Hn & Hv) Ho. split; [|done]. cbn [objs u_objs]. intros q. destruct (decide (p = q)) as [<-|Hq].
  - by rewrite !lookup_insert.
  - rewrite !lookup_insert_ne by done. apply H.
Qed.
Lemma sim_get_type p : sim (get_type p) (u_get_type p).
Proof.
  intros w w' H. unfold sim_at, get_type, u_get_type, bind, get_var, u_get_var. destruct (objs w !! p) as [o|] eqn:E; [|done].
  destruct (rel_some _ _ _ _ H E) as (o' & -> & _ & Ht). unfold ret. rewrite Ht. eauto.
Qed.
Lemma sim_peek p : sim (get_var p ;;; ret tt) (u_get_var p ;;; ret tt).
Proof.
  intros w w' H. unfold sim_at, bind, get_var, u_get_var. destruct (objs w !! p) as [o|] eqn:E; [|done].
  destruct (rel_some _ _ _ _ H E) as (o' & -> & _). unfold ret. eauto.
Qed.
Lemma sim_set_type p t : sim (set_type p t) (u_set_type p t).
Proof.
  intros w w' H. unfold sim_at, set_type, u_set_type, bind, get_var, u_get_var, put_var, u_put_var. destruct (objs w !! p) as [o|] eqn:E; [|done].
  destruct (rel_some _ _ _ _ H E) as (o' & -> & Hs & Ht). eexists. split; [done|]. by apply rel_put.
Qed.
Lemma sim_put_raw p t : sim (put_var p (Var None t)) (u_put_var p (UVar CNone t)).
Proof. intros w w' H. unfold sim_at, put_var, u_put_var. eexists. split; [done|]. by apply rel_put. Qed.
Lemma sim_drop p : sim (drop_var p) (u_drop_var p).
Proof.
  intros w w' H. unfold sim_at, drop_var, u_drop_var, bind, get_var, u_get_var. destruct (objs w !! p) as [o|] eqn:E; [|done].
  destruct (rel_some _ _ _ _ H E) as (o' & -> & Hs & Ht). destruct (v_storage o) as [[]|]; [done|]. destruct Hs as [-> _].
  eexists. split; [done|]. destruct H as (H & Hn & Hv). split; [|done]. cbn [objs u_objs]. intros q. destruct (decide (p = q)) as [<-|Hq].
  - by rewrite !lookup_delete.
  - rewrite !lookup_delete_ne by done. apply H.
Qed.
Lemma sim_get p i : sim (st_get p i) (u_st_get strict p i).
Proof.
  intros w w' H. unfold sim_at, st_get, u_st_get, bind, get_var, u_get_var. destruct (objs w !! p) as [o|] eqn:E; [|done].
  destruct (rel_some _ _ _ _ H E) as (o' & -> & Hs & Ht). destruct (v_storage o) as [[j v]|]; [|done].
  destruct (decide (i = j)) as [->|]; [|done]. destruct Hs as [-> Hs]. rewrite get_deep by done. unfold lift, ret. eauto.
Qed.
Lemma get_strict w w' p i v w1 : rel w w' → st_get p i w = Ok v w1 → w1 = w ∧ (strict = true → i = 0).
Proof.
  intros H. unfold st_get, bind, get_var. destruct (objs w !! p) as [o|] eqn:E; [|done].
  destruct (rel_some _ _ _ _ H E) as (o' & _ & Hs & _). destruct (v_storage o) as [[j v']|]; [|done].
  destruct (decide (i = j)) as [->|]; [|done]. destruct Hs as [_ Hs]. unfold ret. by intros [= _ <-].
Qed.
Lemma sim_store p i v : sim (st_store p i v) (u_st_store strict p i v).
Proof.
  intros w w' H. unfold sim_at, st_store, u_st_store, bind, get_var, u_get_var. destruct (objs w !! p) as [o|] eqn:E; [|done].
  destruct (rel_some _ _ _ _ H E) as (o' & -> & Hs & Ht). destruct (v_storage o) as [[j v']|]; [|done].
  destruct (decide (i = j)) as [->|]; [|done]. destruct Hs as [-> Hs]. rewrite store_deep by done.
  unfold lift, ret, put_var, u_put_var. eexists. split; [done|]. by apply rel_put.
Qed.
Lemma sim_destroy p i : sim (st_destroy p i) (u_st_destroy strict p i).
Proof.
  intros w w' H. unfold sim_at, st_destroy, u_st_destroy, bind, get_var, u_get_var. destruct (objs w !! p) as [o|] eqn:E; [|done].
  destruct (rel_some _ _ _ _ H E) as (o' & -> & Hs & Ht). destruct (v_storage o) as [[j v']|]; [|done].
  destruct (decide (i = j)) as [->|]; [|done]. destruct Hs as [-> Hs]. destruct (destroy_deep j v' Hs) as (u & -> & Hu).
  unfold lift, ret, put_var, u_put_var. eexists. split; [done|]. by apply rel_put.
Qed.
Lemma sim_may_throw b : sim (may_throw b) (u_may_throw b).
Proof.
  intros w w' (H & Hn & Hv). unfold sim_at, may_throw, u_may_throw. destruct b; [by exists w'|]. rewrite <- Hn.
  destruct (copy_fails (ncopy w)); (eexists; split; [done|]); (split; [done|]); cbn [ncopy u_ncopy visits u_visits]; by split.
Qed.
Lemma sim_log i v : sim (log_visit i v) (u_log_visit i v).
Proof.
  intros w w' (H & Hn & Hv). unfold sim_at, log_visit, u_log_visit. eexists. split; [done|]. split; [done|].
  cbn [ncopy u_ncopy visits u_visits]. by rewrite Hv.
Qed.
(** construction in a variant that is raw *)
Definition raw (p : name) (w : world) : Prop := ∃ t, objs w !! p = Some (Var None t).
Lemma sim_at_set w w' p i m m' : rel w w' → raw p w → (strict = true → i = 0) → sim_at w w' m m' →
  sim_at w w' (v <- m ;; st_set p i v) (u_st_set strict p i m').
Proof.
  intros H [t Hp] Hi Hm. destruct (rel_some _ _ _ _ H Hp) as (o' & Ho' & [He _] & _).
  assert (u_st_set strict p i m' w' =
    (v <- m' ;; o <- u_get_var p ;; u <- lift (c_set strict i v (u_storage o)) ;; u_put_var p (UVar u (u_type o))) w') as E0.
  { unfold u_st_set. unfold bind at 1. unfold u_get_var at 1. rewrite Ho'. unfold bind at 1. by rewrite reach_empty. }
  unfold sim_at. rewrite E0. unfold bind.
  unfold sim_at in Hm. destruct (m w) as [v w1|e w1|f|]; [|by destruct Hm as (w1' & -> & ?); eauto|done|by rewrite Hm].
  destruct Hm as (w1' & -> & H1). unfold st_set, bind, get_var, u_get_var. destruct (objs w1 !! p) as [o1|] eqn:E; [|done].
  destruct (rel_some _ _ _ _ H1 E) as (o1' & -> & Hs & Ht). destruct (v_storage o1) as [[]|]; [done|]. destruct Hs as [Hs _].
  rewrite set_empty by done. unfold lift, ret, put_var, u_put_var. eexists. split; [done|]. by apply rel_put.
Qed.

(** ** Functions *)
Ltac sim_step :=
  first [ apply sim_ret | apply sim_throw | apply sim_stuck | apply sim_get_type | apply sim_peek | apply sim_set_type | apply sim_put_raw
        | apply sim_drop | apply sim_get | apply sim_store | apply sim_destroy | apply sim_may_throw | apply sim_log
        | apply sim_noexcept | apply sim_on_exn | apply sim_dispatch | (apply sim_bind; [|intros ?]) ].
Lemma sim_rd_ref i r : sim (rd_ref i r) (u_rd_ref strict i r).
Proof. destruct r; cbn [rd_ref u_rd_ref]; repeat sim_step. Qed.
Lemma sim_rd_refs l : sim (rd_refs l) (u_rd_refs strict l).
Proof.
  induction l as [|[i r] l IH]; cbn [rd_refs u_rd_refs]; [sim_step|]. apply sim_bind; [apply sim_rd_ref|]. intros v.
  apply sim_bind; [exact IH|]. intros vs. sim_step.
Qed.
Lemma sim_new_value i a : sim (new_value i a) (u_new_value strict i a).
Proof.
  destruct a as [r|[v|y]|c l]; cbn [new_value u_new_value]; repeat sim_step; [apply sim_rd_ref|apply sim_rd_refs].
Qed.
Lemma sim_visit p t f : sim (st_visit p t f) (u_st_visit strict p t f).
Proof. unfold st_visit, u_st_visit. repeat sim_step. Qed.
Lemma sim_destroy_any t p : sim (st_destroy_any t p) (u_st_destroy_any strict t p).
Proof. unfold st_destroy_any, u_st_destroy_any. repeat sim_step. Qed.
Lemma sim_swap_st t p q : sim (st_swap t p q) (u_st_swap strict t p q).
Proof. unfold st_swap, u_st_swap. repeat sim_step. Qed.
Lemma sim_at_emplace w w' p t a : rel w w' → raw p w → (strict = true → t = 0) →
  sim_at w w' (st_emplace p t a) (u_st_emplace strict p t a).
Proof. intros H Hp Ht. apply sim_at_dispatch. apply sim_at_set; [done|done|done|by apply sim_new_value]. Qed.
Lemma sim_at_from w w' p q i (k : V → M world unit) k' : rel w w' → raw p w → (∀ v, sim (k v) (k' v)) →
  sim_at w w' (v <- st_get q i ;; k v ;;; st_set p i v) (u_st_set strict p i (v <- u_st_get strict q i ;; k' v ;;; ret v)).
Proof.
  intros H Hp Hk. destruct (st_get q i w) as [v w1|e w1|f|] eqn:E.
  - destruct (get_strict _ _ _ _ _ _ H E) as [-> Hi].
    pose proof (sim_at_set w w' p i (v <- st_get q i ;; k v ;;; ret v) (v <- u_st_get strict q i ;; k' v ;;; ret v) H Hp Hi) as Hs.
    assert (∀ w, (v <- (v <- st_get q i ;; k v ;;; ret v) ;; st_set p i v) w = (v <- st_get q i ;; k v ;;; st_set p i v) w) as Ea.
    { intros w0. unfold bind, ret. destruct (st_get q i w0) as [v0 w2|? ?|?|]; [|done..]. by destruct (k v0 w2). }
    unfold sim_at at 2 in Hs. rewrite Ea in Hs. apply Hs. repeat first [sim_step|apply Hk]. all: try done.
    apply (sim_bind (st_get q i)); [apply sim_get| |done]. intros v1. apply sim_bind; [apply Hk|]. intros ?. apply sim_ret.
  - exfalso. revert E. unfold st_get, bind, get_var. destruct (objs w !! q) as [o|]; [|done]. destruct (v_storage o) as [[j ?]|]; [|done].
    by destruct (decide (i = j)).
  - unfold sim_at, bind. by rewrite E.
  - exfalso. revert E. unfold st_get, bind, get_var. destruct (objs w !! q) as [o|]; [|done]. destruct (v_storage o) as [[j ?]|]; [|done].
    by destruct (decide (i = j)).
Qed.
Lemma sim_at_assign_copy w w' t p q : rel w w' → raw p w →
  sim_at w w' (st_assign_copy t p q) (u_st_assign_copy strict t p q).
Proof.
  intros H Hp. apply sim_at_dispatch. apply (sim_at_from _ _ _ _ _ (λ _, may_throw (nothrow_copy t)) (λ _, u_may_throw (nothrow_copy t))); [done|done|].
  intros _. apply sim_may_throw.
Qed.
Lemma sim_at_assign_move w w' t p q : rel w w' → raw p w →
  sim_at w w' (st_assign_move t p q) (u_st_assign_move strict t p q).
Proof.
  intros H Hp. apply sim_at_noexcept, sim_at_dispatch.
  apply (sim_at_from _ _ _ _ _ (λ v, st_store q t (moved t v)) (λ v, u_st_store strict q t (moved t v))); [done|done|].
  intros v. apply sim_store.
Qed.

Lemma get_type_same p t w w1 : get_type p w = Ok t w1 → w1 = w.
Proof. unfold get_type, bind, get_var, ret. destruct (objs w !! p); [|done]. by intros [= _ <-]. Qed.
Lemma destroy_raw t p w w1 : st_destroy_any t p w = Ok tt w1 → raw p w1.
Proof.
  unfold st_destroy_any, dispatch. rewrite list_lookup_fmap. destruct (seq 0 (length alts) !! t) as [j|]; [|done]. cbn [fmap option_fmap option_map].
  unfold st_destroy, bind, get_var. destruct (objs w !! p) as [o|]; [|done]. destruct (v_storage o) as [[k v]|]; [|done].
  destruct (decide (j = k)); [|done]. unfold put_var. intros [= <-]. unfold raw. cbn [objs]. rewrite lookup_insert. eauto.
Qed.
Lemma sim_construct p t (b : M world unit) b' : (∀ w w', rel w w' → raw p w → sim_at w w' b b') →
  sim (construct_var p t b) (u_construct_var p t b').
Proof.
  intros Hb w w' H. apply sim_at_bind; [by apply sim_put_raw|]. intros [] w1 w1' E H1.
  apply sim_at_on_exn; [|apply sim_drop]. apply Hb; [done|]. unfold put_var in E. injection E as <-. unfold raw. cbn [objs].
  rewrite lookup_insert. eauto.
Qed.
Lemma sim_new_index p i a : (strict = true → i = 0) → sim (var_new_index p i a) (u_var_new_index strict p i a).
Proof. intros Hi. apply sim_construct. intros w w' H Hr. apply sim_at_set; [done|done|done|by apply sim_new_value]. Qed.
Lemma sim_new p : sim (var_new p) (u_var_new strict p).
Proof. apply sim_construct. intros w w' H Hr. apply sim_at_set; [done|done|done|by apply sim_new_value]. Qed.
Lemma sim_new_copy p q : sim (var_new_copy p q) (u_var_new_copy strict p q).
Proof.
  apply sim_bind; [apply sim_get_type|]. intros t. apply sim_construct. intros w w' H Hr.
  apply sim_at_bind; [by apply sim_get_type|]. intros s w1 w1' E H1. apply get_type_same in E as ->. by apply sim_at_assign_copy.
Qed.
Lemma sim_new_move p q : sim (var_new_move p q) (u_var_new_move strict p q).
Proof.
  apply sim_noexcept, sim_bind; [apply sim_get_type|]. intros t. apply sim_construct. intros w w' H Hr.
  apply sim_at_bind; [by apply sim_get_type|]. intros s w1 w1' E H1. apply get_type_same in E as ->. by apply sim_at_assign_move.
Qed.
Lemma sim_var_destroy p : sim (var_destroy p) (u_var_destroy strict p).
Proof. unfold var_destroy, u_var_destroy. repeat first [sim_step|apply sim_destroy_any]. Qed.
Lemma sim_with_tmp i b i' b' : sim i i' → sim b b' → sim (with_tmp i b) (u_with_tmp strict i' b').
Proof.
  intros Hi Hb. apply sim_bind; [done|]. intros []. apply sim_bind; [|intros ?; apply sim_var_destroy].
  apply sim_on_exn; [done|apply sim_var_destroy].
Qed.
(** destroy, assign<true> and the new type *)
Lemma sim_replace p q q' : sim (t <- get_type p ;; st_destroy_any t p ;;; u <- get_type q ;; st_assign_move u p q ;;; s <- get_type q' ;; set_type p s)
  (t <- u_get_type p ;; u_st_destroy_any strict t p ;;; u <- u_get_type q ;; u_st_assign_move strict u p q ;;; s <- u_get_type q' ;; u_set_type p s).
Proof.
  apply sim_bind; [apply sim_get_type|]. intros t w w' H. apply sim_at_bind; [by apply sim_destroy_any|].
  intros [] w1 w1' E H1. apply destroy_raw in E. apply sim_at_bind; [by apply sim_get_type|]. intros u w2 w2' E2 H2.
  apply get_type_same in E2 as ->. apply sim_at_bind; [by apply sim_at_assign_move|]. intros [] w3 w3' _ H3.
  apply sim_bind; [apply sim_get_type| |done]. intros s. apply sim_set_type.
Qed.
Lemma sim_move_assign p q : sim (var_move_assign p q) (u_var_move_assign strict p q).
Proof. apply sim_noexcept. destruct (decide (p = q)); [apply sim_peek|apply sim_replace]. Qed.
Lemma sim_copy_assign p q : sim (var_copy_assign p q) (u_var_copy_assign strict p q).
Proof.
  unfold var_copy_assign, u_var_copy_assign. destruct (decide (p = q)); [apply sim_peek|].
  apply sim_with_tmp; [apply sim_new_copy|apply sim_replace].
Qed.
Lemma sim_assign p T a : (strict = true → index_of T = 0) → sim (var_assign p T a) (u_var_assign strict p T a).
Proof. intros Hi. apply sim_with_tmp; [by apply sim_new_index|apply sim_move_assign]. Qed.
Lemma sim_holds p T : sim (var_holds p T) (u_var_holds p T).
Proof. unfold var_holds, u_var_holds. repeat sim_step. Qed.
Lemma sim_get_if p T : sim (var_get_if p T) (u_var_get_if p T).
Proof. apply sim_noexcept, sim_bind; [apply sim_holds|]. intros []; apply sim_ret. Qed.
Lemma sim_var_get p T : sim (var_get p T) (u_var_get strict p T).
Proof. apply sim_bind; [apply sim_get_if|]. intros [i|]; [apply sim_get|apply sim_throw]. Qed.
Lemma sim_write p T v : sim (var_write p T v) (u_var_write strict p T v).
Proof. apply sim_bind; [apply sim_get_if|]. intros [i|]; [apply sim_store|apply sim_throw]. Qed.
Lemma sim_take p T : sim (var_take p T) (u_var_take strict p T).
Proof. apply sim_bind; [apply sim_get_if|]. intros [i|]; repeat sim_step. Qed.
Lemma sim_emplace p T a : (strict = true → index_of T = 0 ∧ index_of (remove_const T) = 0) →
  sim (var_emplace p T a) (u_var_emplace strict p T a).
Proof.
  intros Hi. apply sim_bind; [|intros ?; apply sim_var_get]. destruct (declared (index_of T) a).
  - apply sim_bind; [apply sim_get_type|]. intros t w w' H. apply sim_at_bind; [by apply sim_destroy_any|].
    intros [] w1 w1' E H1. apply destroy_raw in E. apply sim_at_bind; [apply sim_at_emplace; [done|done|intros ?; by apply Hi]|].
    intros [] w2 w2' _ H2. by apply sim_set_type.
  - apply sim_with_tmp; [apply sim_new_index; intros ?; by apply Hi|apply sim_move_assign].
Qed.
Lemma sim_swap p q : sim (var_swap p q) (u_var_swap strict p q).
Proof.
  apply sim_noexcept. destruct (decide (p = q)); [apply sim_peek|]. apply sim_bind; [apply sim_get_type|]. intros t.
  apply sim_bind; [apply sim_get_type|]. intros u. destruct (t =? u).
  - apply sim_bind; [apply sim_get_type|]. intros s. apply sim_swap_st.
  - apply sim_noexcept, sim_with_tmp; [apply sim_new_move|]. apply sim_bind; [|intros ?]; apply sim_move_assign.
Qed.
(** the calls that construct an alternative, in the strict rule the first one *)
Definition call_ok (o : vop) : Prop := strict = true →
  match o with
  | VNewValue _ T _ | VAssign _ T _ => index_of T = 0
  | VNewIndex _ i _ => i = 0
  | VEmplace _ T _ => index_of T = 0 ∧ index_of (remove_const T) = 0
  | VEmplaceIndex _ i _ => ∀ T, determine_type i alts = Some T → index_of T = 0 ∧ index_of (remove_const T) = 0
  | _ => True
  end.
Lemma sim_exec o : call_ok o → sim (vexec o) (u_vexec strict o).
Proof.
  intros Ho. destruct o; cbn [vexec u_vexec]; unfold obs, u_obs; (apply sim_bind; [|intros ?; apply sim_ret]);
    first [apply sim_new|apply sim_new_copy|apply sim_new_move|apply sim_var_destroy|apply sim_copy_assign|apply sim_move_assign
          |apply sim_swap|apply sim_holds|apply sim_get_if|apply sim_var_get|apply sim_take|apply sim_write|idtac].
  - by apply sim_new_index.
  - by apply sim_new_index.
  - by apply sim_assign.
  - by apply sim_emplace.
  - unfold var_emplace_index, u_var_emplace_index. destruct (determine_type i alts) as [T|] eqn:E; [|apply sim_stuck].
    apply sim_emplace. intros Hs. by apply Ho.
  - unfold var_visit, u_var_visit. apply sim_bind; [apply sim_get_type|]. intros t. apply sim_visit.
Qed.
Lemma sim_run os : ∀ w w', rel w w' → (∀ o, o ∈ os → call_ok o) →
  match vrun os w with
  | Finished rs w1 => ∃ w1', u_vrun strict os w' = UFinished rs w1' ∧ rel w1 w1'
  | Faulted _ => True
  | Aborted => u_vrun strict os w' = UAborted
  end.
Proof.
  induction os as [|o os IH]; intros w w' H Ho; [by exists w'|]. cbn [vrun u_vrun].
  pose proof (sim_exec o (Ho o ltac:(left)) w w' H) as Hx. unfold sim_at in Hx.
  assert (∀ o, o ∈ os → call_ok o) as Ho' by (intros ? ?; apply Ho; by right).
  destruct (vexec o w) as [r w1|e w1|f|]; [| |done|by rewrite Hx].
  - destruct Hx as (w1' & -> & H1). specialize (IH w1 w1' H1 Ho'). destruct (vrun os w1); [|done|by rewrite IH].
    destruct IH as (w2' & -> & H2). eauto.
  - destruct Hx as (w1' & -> & H1). specialize (IH w1 w1' H1 Ho'). destruct (vrun os w1); [|done|by rewrite IH].
    destruct IH as (w2' & -> & H2). eauto.
Qed.
Lemma rel_init : rel init_world u_init_world.
Proof. split; [|done]. intros p. cbn [objs u_objs init_world u_init_world]. by rewrite !lookup_empty. Qed.
End sim.

(** ** With the strict rule no [next] ever becomes alive *)
Section strict.
Context `{C : VarCfg}.
Definition shallow (u : chain V) : Prop := match u with CNext _ => False | _ => True end.
Definition inv (w : u_world) : Prop := ∀ p o, u_objs w !! p = Some o → shallow (u_storage o).
Definition keeps {A} (m : M u_world A) : Prop := ∀ w, inv w → match m w with Ok _ w' | Exn _ w' => inv w' | _ => True end.

Lemma keeps_ret {A} (a : A) : keeps (ret a).
Proof. by intros w H. Qed.
Lemma keeps_throw {A} e : keeps (A := A) (throw e).
Proof. by intros w H. Qed.
Lemma keeps_stuck {A} f : keeps (A := A) (stuck f).
Proof. by intros w H. Qed.
Lemma keeps_lift {A} (r : fault + A) : keeps (lift r).
Proof. by destruct r; intros w H. Qed.
Lemma keeps_bind {A B} (m : M u_world A) (k : A → M u_world B) : keeps m → (∀ a, keeps (k a)) → keeps (bind m k).
Proof. intros Hm Hk w H. unfold bind. specialize (Hm w H). destruct (m w); [by apply Hk|done..]. Qed.
Lemma keeps_noexcept {A} (m : M u_world A) : keeps m → keeps (noexcept m).
Proof. intros Hm w H. unfold noexcept. specialize (Hm w H). by destruct (m w). Qed.
Lemma keeps_on_exn {A} (m : M u_world A) c : keeps m → keeps c → keeps (on_exn m c).
Proof.
  intros Hm Hc w H. unfold on_exn. specialize (Hm w H). destruct (m w) as [|e w'| |]; [done| |done..].
  specialize (Hc w' Hm). by destruct (c w').
Qed.
Lemma keeps_dispatch {A} (f : nat → M u_world A) t : (∀ i, keeps (f i)) → keeps (u_dispatch f t).
Proof. intros H. unfold u_dispatch. rewrite list_lookup_fmap. destruct (seq 0 (length alts) !! t); [apply H|apply keeps_stuck]. Qed.
Lemma keeps_get p : keeps (u_get_var p).
Proof. intros w H. unfold u_get_var. by destruct (u_objs w !! p). Qed.
Lemma keeps_put p o : shallow (u_storage o) → keeps (u_put_var p o).
Proof.
  intros Ho w H. unfold u_put_var. intros q o'. cbn [u_objs]. destruct (decide (p = q)) as [<-|Hq].
  - rewrite lookup_insert. by intros [= <-].
  - rewrite lookup_insert_ne by done. apply H.
Qed.
(** an update of the storage of [p] *)
Lemma keeps_update p (f : chain V → fault + chain V) : (∀ u u', shallow u → f u = inr u' → shallow u') →
  keeps (o <- u_get_var p ;; u <- lift (f (u_storage o)) ;; u_put_var p (UVar u (u_type o))).
Proof.
  intros Hf w H. unfold bind, u_get_var. destruct (u_objs w !! p) as [o|] eqn:E; [|done].
  destruct (f (u_storage o)) as [g|u] eqn:Eu; [done|]. unfold lift, ret. apply keeps_put; [|done].
  cbn [u_storage]. eapply Hf; [|exact Eu]. by eapply H.
Qed.
Lemma enter_shallow u : shallow u → ∃ f, enter true u = inl f.
Proof. destruct u; [by eexists..|done]. Qed.
Lemma keeps_store p i v : keeps (u_st_store true p i v).
Proof.
  apply keeps_update. intros u u' Hu. destruct i as [|i]; cbn [c_store].
  - destruct u; [done| |done]. by intros [= <-].
  - by destruct (enter_shallow u Hu) as [f ->].
Qed.
Lemma keeps_destroy p i : keeps (u_st_destroy true p i).
Proof.
  apply keeps_update. intros u u' Hu. destruct i as [|i]; cbn [c_destroy].
  - destruct u; [done| |done]. by intros [= <-].
  - by destruct (enter_shallow u Hu) as [f ->].
Qed.
Lemma keeps_set p i m : keeps m → keeps (u_st_set true p i m).
Proof.
  intros Hm. apply keeps_bind; [apply keeps_get|]. intros o. apply keeps_bind; [apply keeps_lift|]. intros _.
  apply keeps_bind; [done|]. intros v. apply (keeps_update p (c_set true i v)). intros u u' Hu. destruct i as [|i]; cbn [c_set].
  - destruct (empty u); [|done]. by intros [= <-].
  - by destruct (enter_shallow u Hu) as [f ->].
Qed.
Lemma keeps_set_type p t : keeps (u_set_type p t).
Proof.
  intros w H. unfold u_set_type, bind, u_get_var. destruct (u_objs w !! p) as [o|] eqn:E; [|done]. apply keeps_put; [|done].
  cbn [u_storage]. exact (H p o E).
Qed.
Lemma keeps_drop p : keeps (u_drop_var p).
Proof.
  intros w H. unfold u_drop_var, bind, u_get_var. destruct (u_objs w !! p) as [o|]; [|done]. destruct (empty _); [|done].
  intros q o'. cbn [u_objs]. intros [_ Hq]%lookup_delete_Some. exact (H q o' Hq).
Qed.
Lemma keeps_may_throw b : keeps (u_may_throw b).
Proof. intros w H. unfold u_may_throw. destruct b; [done|]. by destruct (copy_fails _). Qed.
Lemma keeps_log i v : keeps (u_log_visit i v).
Proof. by intros w H. Qed.
Ltac keeps_step :=
  match goal with
  | |- keeps (bind _ _) => apply keeps_bind; [|intros ?]
  | |- keeps (ret _) => apply keeps_ret
  | |- keeps (throw _) => apply keeps_throw
  | |- keeps (stuck _) => apply keeps_stuck
  | |- keeps (lift _) => apply keeps_lift
  | |- keeps (noexcept _) => apply keeps_noexcept
  | |- keeps (on_exn _ _) => apply keeps_on_exn
  | |- keeps (u_dispatch _ _) => apply keeps_dispatch; intros ?
  | |- keeps (u_get_var _) => apply keeps_get
  | |- keeps (u_put_var _ _) => apply keeps_put; exact I
  | |- keeps (u_st_store _ _ _ _) => apply keeps_store
  | |- keeps (u_st_destroy _ _ _) => apply keeps_destroy
  | |- keeps (u_st_set _ _ _ _) => apply keeps_set
  | |- keeps (u_set_type _ _) => apply keeps_set_type
  | |- keeps (u_drop_var _) => apply keeps_drop
  | |- keeps (u_may_throw _) => apply keeps_may_throw
  | |- keeps (u_log_visit _ _) => apply keeps_log
  end.
Lemma keeps_rd_ref i r : keeps (u_rd_ref true i r).
Proof. destruct r; cbn [u_rd_ref]; unfold u_st_get; repeat keeps_step. Qed.
Lemma keeps_rd_refs l : keeps (u_rd_refs true l).
Proof.
  induction l as [|[i r] l IH]; cbn [u_rd_refs]; [keeps_step|]. apply keeps_bind; [apply keeps_rd_ref|]. intros v.
  apply keeps_bind; [exact IH|]. intros vs. keeps_step.
Qed.
Lemma keeps_new_value i a : keeps (u_new_value true i a).
Proof.
  destruct a as [r|[v|y]|c l]; cbn [u_new_value]; unfold u_st_get; repeat first [apply keeps_rd_ref|apply keeps_rd_refs|keeps_step].
Qed.
Lemma keeps_exec o : keeps (u_vexec true o).
Proof.
  destruct o; cbn [u_vexec]; unfold u_obs, u_var_copy_assign,
    u_var_assign, u_var_swap, u_std_swap, u_var_emplace_index, u_var_emplace, u_var_new, u_var_new_copy, u_var_new_move, u_var_new_value, u_var_new_index, u_var_visit, u_var_take, u_var_write, u_var_get,
    u_var_get_if, u_var_holds, u_var_move_assign, u_with_tmp, u_var_destroy, u_construct_var, u_st_swap, u_st_destroy_any,
    u_st_assign_move, u_st_assign_copy, u_st_emplace, u_st_visit, u_st_get, u_get_type;
    repeat first [keeps_step|apply keeps_new_value|case_decide|case_match].
Qed.
Lemma keeps_run os : ∀ w rs w', inv w → u_vrun true os w = UFinished rs w' → inv w'.
Proof.
  induction os as [|o os IH]; intros w rs w' H; cbn [u_vrun]; [by intros [= _ <-]|].
  pose proof (keeps_exec o w H) as Hk. destruct (u_vexec true o w) as [r w1|e w1|f|]; [| |done|done].
  - destruct (u_vrun true os w1) eqn:E; [|done..]. intros [= <- <-]. by eapply IH.
  - destruct (u_vrun true os w1) eqn:E; [|done..]. intros [= <- <-]. by eapply IH.
Qed.
End strict.
