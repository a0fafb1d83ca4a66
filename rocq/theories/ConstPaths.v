(** Proofs about ConstModel.v. *)
From stdpp Require Import prelude.
From Verif Require Import ConstModel ConstSpec.
Local Open Scope nat_scope.

Lemma two_resolve c k r : resolve c k (two r) = Some (r c).
Proof. by destruct c, k. Qed.
Lemma one_resolve c k r : resolve c k (one r) = Some r.
Proof. by destruct c, k. Qed.
Lemma four_resolve c k (r : bool → cat → res) :
  resolve c k [O true (Some L) (r true L); O false (Some L) (r false L); O true (Some X) (r true X); O false (Some X) (r false X)] = Some (r c k).
Proof. by destruct c, k. Qed.
Lemma none_resolve c k : resolve c k [] = None.
Proof. done. Qed.
Lemma aref_resolve c k (r s : res) : resolve c k [O true None r; O false None s] = Some (if c then r else s).
Proof. by destruct c, k. Qed.
Lemma four_ref c k t :
  resolve c k [O true (Some L) (Ref true L t); O false (Some L) (Ref false L t); O true (Some X) (Ref true X t); O false (Some X) (Ref false X t)] = Some (Ref c k t).
Proof. by destruct c, k. Qed.
Lemma four_tup c k et :
  resolve c k [O true (Some L) (tup_value true et); O false (Some L) (tup_value false et);
               O true (Some X) (std_move (tup_value true et)); O false (Some X) (std_move (tup_value false et))] = Some (Ref (c || et.1) k et.2).
Proof. by destruct c, k. Qed.

Ltac members H := unfold access, members, vec_members, str_members, arr_members, opt_members, var_members, tup_members, aref_members,
  sref_members, oref_members, vref_members, ptr_members in H;
  repeat match type of H with context [match ?l !! ?j with _ => _ end] => destruct (l !! j) as [?|] eqn:? end;
  repeat match goal with p : (bool * ty)%type |- _ => destruct p as [? ?] end;
  rewrite ?two_resolve, ?one_resolve, ?four_ref, ?four_tup, ?aref_resolve, ?none_resolve in H.

(** what an accessor of an owner yields *)
Lemma owner_access a c k t r : owner t = true → access a c k t = Some r →
  res_const r 0 = c || member_const t a || c_named a ∧
  match r with Ref _ k' _ => k' = k ∨ k' = L | Val u => owner u = false end.
Proof.
  intros Ho H. destruct t, a; try done; members H; try done; injection H as <-; cbn [res_const target_const c_named member_const fst snd];
    repeat match goal with E : _ !! _ = Some _ |- _ => rewrite E end; by destruct c; rewrite ?orb_false_r, ?orb_true_r; eauto.
Qed.
(** and one of a view *)
Lemma view_access a c k t j r : owner t = false → looks a t j → access a c k t = Some r →
  (target_const t j = true → res_const r 0 = true) ∧
  match r with Ref _ k' _ => k' = L | Val u => owner u = false end.
Proof.
  intros Ho Hl H. destruct t, a; try done; cbn [looks] in Hl; subst; members H; try done; injection H as <-;
    cbn [res_const target_const fst snd];
    repeat match goal with E : _ !! _ = Some _ |- _ => rewrite E end; try (by destruct c); done.
Qed.

(** ** Invariants *)
Definition view_state (s : state) : Prop := match s with In _ _ _ => True | Out _ _ t _ => owner t = false end.
Lemma data_view c t e u : access Data c L t = Some (Val (Ptr e u)) → ∀ j, target_const t j = true → e = true.
Proof.
  intros H j Hj. destruct t; try done; members H; try done; injection H as <- <-; try done.
Qed.
Lemma star_view c t e u : owner t = false → access Star c L t = Some (Ref e L u) → ∀ j, target_const t j = true → e = true.
Proof. intros Ho H j Hj. destruct t; try done; members H; try done; by injection H as <- <-. Qed.
Lemma star_owner c t e u : owner t = true → access Star c L t = Some (Ref e L u) → c = true → e = true.
Proof. intros Ho H ->. apply owner_access in H as [H _]; [|done]. done. Qed.
Lemma data_owner c t e u : owner t = true → access Data c L t = Some (Val (Ptr e u)) → c = true → e = true.
Proof. intros Ho H ->. apply owner_access in H as [H _]; [|done]. done. Qed.
Lemma step_view b s s' : step b s s' → view_state s → view_state s'.
Proof.
  intros H. destruct H; cbn [view_state]; intros Hv; try done.
  - by destruct (owner_access _ _ _ _ _ H H0).
  - by destruct (view_access _ _ _ _ _ _ Hv H H0).
Qed.
Lemma step_read_only b s s' : step b s s' → view_state s → read_only s → read_only s'.
Proof.
  intros H. destruct H; cbn [view_state read_only target_const]; intros Hv Hr; subst; try done.
  - by destruct (owner_access _ _ _ _ _ H H0).
  - destruct (owner_access _ _ _ _ _ H H0) as [Hc _]. done.
  - by apply (view_access _ _ _ _ _ _ Hv H H0).
  - by apply (view_access _ _ _ _ _ _ Hv H H0).
  - by apply H.
  - apply H1. eapply data_owner; [done|exact H0|]. by destruct k.
  - apply H0. by eapply data_view.
  - by apply H.
  - apply H1. by eapply star_owner.
  - apply H0. by eapply star_view.
  - rewrite H. by destruct H0 as [[_ ->]| ->].
Qed.
Lemma step_moved s s' : step false s s' → view_state s → ¬ may_be_moved s → ¬ may_be_moved s'.
Proof.
  intros H. inversion H; subst; cbn [view_state may_be_moved]; intros Hv Hr; try (by intros ?); try done.
  - destruct (owner_access _ _ _ _ _ H0 H1) as [_ Hk]. destruct k; [|done]. by destruct Hk as [-> | ->].
  - destruct (view_access _ _ _ _ _ _ Hv H0 H1) as [_ ->]. done.
Qed.
Lemma steps_view b s s' : steps b s s' → view_state s → view_state s'.
Proof. induction 1; [done|]. intros Hv. eapply step_view; eauto. Qed.
Lemma steps_read_only b s s' : steps b s s' → view_state s → read_only s → read_only s'.
Proof. induction 1; [done|]. intros Hv Hr. eapply step_read_only; [eassumption| |by auto]. by eapply steps_view. Qed.
Lemma steps_moved b s s' : steps b s s' → b = false → view_state s → ¬ may_be_moved s → ¬ may_be_moved s'.
Proof.
  induction 1 as [|b b' s1 s2 s3 H IH Hs]; [done|]. intros [-> ->]%orb_false_iff Hv Hr.
  eapply step_moved; [exact Hs|by eapply steps_view|by apply IH].
Qed.
Lemma steps_trans b b' s1 s2 s3 : steps b s1 s2 → steps b' s2 s3 → steps (b || b') s1 s3.
Proof.
  intros H1 H2. revert b s1 H1. induction H2 as [|b' b'' s2 s3 s4 H IH Hs]; intros b s1 H1; [by rewrite orb_false_r|].
  rewrite orb_assoc. eapply s_next; [by apply IH|done].
Qed.

(** ** Ways to the parts *)
Lemma go a c k t e k' u e' k'' v : owner t = true → access a c k t = Some (Ref e k' u) →
  steps false (In e k' u) (In e' k'' v) → steps false (In c k t) (In e' k'' v).
Proof.
  intros Ho Ha H. change false with (false || false). eapply steps_trans; [|exact H].
  change false with (false || false). eapply s_next; [apply s_refl|by eapply s_part].
Qed.
Lemma reach_part e T U : part e T U → ∀ c, steps false (In c L T) (In (c || e) L U).
Proof.
  induction 1 as [T|e T U H IH|e U H IH|e T U H IH|e T U H IH|e Ts T U HT H IH|d e Ts T U HT H IH]; intros c.
  - rewrite orb_false_r. apply s_refl.
  - eapply (go Front); [done|exact (two_resolve c L (λ c, Ref c L T))|apply IH].
  - eapply (go Front); [done|exact (two_resolve c L (λ c, Ref c L char))|apply IH].
  - eapply (go Front); [done|exact (two_resolve c L (λ c, Ref c L T))|apply IH].
  - eapply (go Value); [done|exact (four_ref c L T)|apply IH].
  - apply elem_of_list_lookup in HT as [j Hj]. eapply (go (Get j)); [done| |apply IH].
    unfold access, members, var_members. rewrite Hj. exact (four_ref c L T).
  - apply elem_of_list_lookup in HT as [j Hj]. rewrite orb_assoc. eapply (go (Get j)); [done| |apply (IH (c || d))].
    unfold access, members, tup_members. rewrite Hj. exact (four_tup c L (d, T)).
Qed.
Lemma reach_inside e T U : inside e T U → ∀ c, steps false (In c X T) (In (c || e) X U).
Proof.
  induction 1 as [T|e T U H IH|e T U H IH|e Ts T U HT H IH|d e Ts T U HT H IH]; intros c.
  - rewrite orb_false_r. apply s_refl.
  - eapply (go (Get 0)); [done|exact (four_ref c X T)|apply IH].
  - eapply (go Value); [done|exact (four_ref c X T)|apply IH].
  - apply elem_of_list_lookup in HT as [j Hj]. eapply (go (Get j)); [done| |apply IH].
    unfold access, members, var_members. rewrite Hj. exact (four_ref c X T).
  - apply elem_of_list_lookup in HT as [j Hj]. rewrite orb_assoc. eapply (go (Get j)); [done| |apply (IH (c || d))].
    unfold access, members, tup_members. rewrite Hj. exact (four_tup c X (d, T)).
Qed.

(** ** Only parts are designated *)
Lemma part_trans e T t : part e T t → ∀ d u, part d t u → part (e || d) T u.
Proof.
  induction 1 as [T|e T U H IH|e U H IH|e T U H IH|e T U H IH|e Ts T U HT H IH|d e Ts T U HT H IH]; intros d' u Hu; [done|..].
  - apply p_vec; auto.
  - apply p_str; auto.
  - apply p_arr; auto.
  - apply p_opt; auto.
  - eapply p_var; eauto.
  - rewrite <- orb_assoc. eapply p_tup; eauto.
Qed.
(** the object an accessor's result refers to *)
Definition res_target (r : res) (j : nat) : option ty := match r with Ref _ _ t => Some t | Val t => target t j end.
Lemma owner_part a c k t r : owner t = true → access a c k t = Some r →
  ∃ e u, part e t u ∧ res_target r 0 = Some u ∧ adds (c || e) (res_const r 0).
Proof.
  intros Ho H. pose proof (proj1 (owner_access _ _ _ _ _ Ho H)) as Hc.
  destruct t, a; try done; members H; try done; injection H as <-; cbn [res_target target res_const target_const member_const c_named fst snd] in *;
    repeat match goal with E : _ !! _ = Some _ |- _ => rewrite ?E in Hc; apply elem_of_list_lookup_2 in E end;
    match goal with
    | |- ∃ e u, part e (Tup _) u ∧ _ => idtac
    | _ => exists false; eexists; split_and!; [econstructor; try eassumption; apply p_self|done|unfold adds; by destruct c]
    end.
  exists b, t. split_and!; [|done|by unfold adds; intros ->]. rewrite <- (orb_false_r b). eapply p_tup; [done|apply p_self].
Qed.
Lemma view_part a c k t j r : owner t = false → looks a t j → access a c k t = Some r →
  res_target r 0 = target t j ∧ adds (target_const t j) (res_const r 0).
Proof.
  intros Ho Hl H. destruct (view_access _ _ _ _ _ _ Ho Hl H) as [Hc _]. split; [|exact Hc].
  destruct t, a; try done; cbn [looks] in Hl; subst; members H; try done; injection H as <-; cbn [res_target target];
    repeat match goal with E : _ !! _ = Some _ |- _ => rewrite E end; by destruct c.
Qed.
(** the state designates, or refers to, a part of an object of type [T] that is const if [c] *)
Definition of_root (c : bool) (T : ty) (s : state) : Prop :=
  match s with
  | In c' _ U => ∃ e, part e T U ∧ adds (c || e) c'
  | Out _ _ t j => ∃ e U, part e T U ∧ target t j = Some U ∧ adds (c || e) (target_const t j)
  end.
Lemma adds_trans a b c : adds a b → adds b c → adds a c.
Proof. unfold adds. auto. Qed.
Lemma adds_or c e d b x : adds (c || e) b → adds (b || d) x → adds (c || (e || d)) x.
Proof. unfold adds. intros H1 H2. rewrite orb_assoc. intros [?|?]%orb_true_iff; apply H2, orb_true_iff; auto. Qed.
Lemma step_root b c T s s' : step b s s' → view_state s → of_root c T s → of_root c T s'.
Proof.
  intros H. destruct H; cbn [view_state of_root target target_const]; intros Hv.
  - intros (d & Hp & Hd). destruct (owner_part _ _ _ _ _ H H0) as (d' & v & Hp' & [= <-] & Hd'). exists (d || d').
    split; [by eapply part_trans|by eapply adds_or].
  - intros (d & Hp & Hd). destruct (owner_part _ _ _ _ _ H H0) as (d' & v & Hp' & Hv' & Hd'). exists (d || d'), v.
    split_and!; [by eapply part_trans|done|by eapply adds_or].
  - intros (d & U & Hp & Ht & Hd). destruct (view_part _ _ _ _ _ _ Hv H H0) as [Ht' Hc]. rewrite <- Ht' in Ht. injection Ht as ->.
    exists d. split; [done|by eapply adds_trans].
  - intros (d & U & Hp & Ht & Hd). destruct (view_part _ _ _ _ _ _ Hv H H0) as [Ht' Hc]. rewrite <- Ht' in Ht.
    exists d, U. split_and!; [done|done|by eapply adds_trans].
  - done.
  - intros (d & Hp & Hd). exists d. by split.
  - done.
  - done.
  - intros (d & Hp & Hd). by exists d, t.
  - intros (d & U & Hp & Ht & Hd). by exists d, U.
  - intros (d & U & Hp & Ht & Hd). by exists d, U.
  - intros (d & U & Hp & Ht & Hd). exists d, U. split_and!; [done|done|by eapply adds_trans].
  - intros (d & Hp & Hd). destruct (owner_part _ _ _ _ _ H H0) as (d' & v & Hp' & [= <-] & Hd'). exists (d || d'), u.
    split_and!; [by eapply part_trans|done|]. eapply adds_trans; [|exact H1]. eapply adds_or; [|exact Hd']. destruct k; [done|by intros ?].
  - intros (d & U & Hp & Ht & Hd). destruct (view_part Data _ _ _ j _ Hv ltac:(by destruct t) H) as [Ht' Hc]. rewrite <- Ht' in Ht.
    exists d, U. split_and!; [done|done|]. eapply adds_trans; [|exact H0]. by eapply adds_trans.
  - intros (d & Hp & Hd). exists d, t. split_and!; [done|done|by eapply adds_trans].
  - intros (d & Hp & Hd). destruct (owner_part _ _ _ _ _ H H0) as (d' & v & Hp' & [= <-] & Hd'). exists (d || d'), u.
    split_and!; [by eapply part_trans|done|]. eapply adds_trans; [|exact H1]. by eapply adds_or.
  - intros (d & U & Hp & Ht & Hd). destruct (view_part Star _ _ _ j _ Hv ltac:(by destruct t) H) as [Ht' Hc]. rewrite <- Ht' in Ht.
    exists d, U. split_and!; [done|done|]. eapply adds_trans; [|exact H0]. by eapply adds_trans.
  - intros (d & Hp & Hd). exists d, t. rewrite H. split_and!; [done|done|]. destruct H0 as [[_ ->]| ->]; [done|by intros ?].
  - intros (d & Hp & Hd). exists (d || false), char. split_and!; [eapply part_trans; [done|apply p_str, p_self]|done|by intros ?].
Qed.
Lemma steps_root b c T s s' : steps b s s' → view_state s → of_root c T s → of_root c T s'.
Proof. induction 1; [done|]. intros Hv Hr. eapply step_root; [eassumption|by eapply steps_view|by auto]. Qed.
