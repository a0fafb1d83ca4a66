(** The rest of ptl::vector's member functions, and the one-step theorem. *)
From stdpp Require Import prelude gmap.
From Coq Require Import ZArith Lia.
From Verif Require Import Cpp VectorModel VectorSpec VectorMem VectorProofs VectorOps VectorOps2.
Local Open Scope nat_scope.

Section proofs.
Context `{C : VecCfg} (Hcfg : cfg_ok).
Notation block := (list (option V)).
Notation state := (gmap nat (list V)).
Notation heap_t := (gmap nat (list (option V))).
Implicit Types (E : exn → world → Prop).

(** ** Relocation of all elements *)
Lemma reloc_all_eq w x v l nb R tmp :
  objs w !! x = Some v → vrep (heap w) v l → other_block v nb →
  heap w !! nb = Some (replicate (length l) None ++ R) →
  (uninit_move_n (v_ptr v, 0) (length l) (Some nb, 0) ;;; commit x tmp) w =
    Ok tt (World (<[x:=tmp]> (objs w)) (<[nb:=(Some <$> l) ++ R]> (hdel (v_ptr v) (heap w)))
             (nextb w) (nctor w) (nalloc w) (nreloc w + length l)).
Proof.
  intros Hx Hr Ho Hnb.
  destruct (reloc_eq w v l 0 (length l) nb [] R 0) as (l1 & Hl1 & _ & Heq); [done|done|lia|done|exact Hnb|].
  erewrite bind_ok by exact Heq. cbn [app drop]. rewrite firstn_all.
  set (w1 := World _ _ _ _ _ _).
  assert (Hr1 : vrep (heap w1) v l1).
  { destruct (v_ptr v) as [b|] eqn:Hb.
    - assert (b ≠ nb) by (unfold other_block in Ho; congruence).
      eapply vrep_ext; [apply (vrep_upd _ _ _ l1 b Hr Hb Hl1)|].
      intros b' Hb'. rewrite Hb in Hb'. injection Hb' as <-. unfold w1. cbn [heap].
      by rewrite lookup_insert_ne.
    - destruct (vrep_none _ _ _ Hr Hb) as [-> ->]. destruct l1; done. }
  erewrite commit_eq; [|exact Hx|exact Hr1].
  f_equal. apply world_eq; try done. unfold w1. cbn [heap with_objs with_heap].
  destruct (v_ptr v) as [b|] eqn:Hb; cbn [hdel]; [|done].
  assert (b ≠ nb) by (unfold other_block in Ho; congruence).
  apply map_eq. intros k. destruct (decide (k = b)) as [->|]; [by simplify_map_eq|].
  destruct (decide (k = nb)) as [->|]; by simplify_map_eq.
Qed.

(** a committed reallocation keeps the invariant *)
Lemma wf_realloc w m x v l l' cap nc na nr :
  wf w m → m !! x = Some l → objs w !! x = Some v → length l' ≤ cap → min_cap ≤ cap ≤ max_cap →
  wf (World (<[x:=Vec (Some (running (nextb w))) (Some (nextb w)) cap (length l')]> (objs w))
            (<[nextb w:=cells l' cap]> (hdel (v_ptr v) (heap w))) (S (nextb w)) nc na nr) (<[x:=l']> m).
Proof.
  intros Hw Hl Hx Hle Hcap. split; cbn [objs heap nextb].
  - eapply (inv_realloc _ _ _ x v l); [apply (proj1 Hw)|done|done|by eapply wf_fresh|done|done].
  - intros k c. destruct (decide (k = nextb w)) as [->|]; [intros _; lia|].
    rewrite lookup_insert_ne by done. intros Hc.
    assert (heap w !! k = Some c) as Hc'.
    { destruct (v_ptr v) as [b|]; cbn [hdel] in Hc; [|done]. by apply lookup_delete_Some in Hc as [_ ?]. }
    apply (proj2 Hw) in Hc'. lia.
Qed.
Lemma hdel_fresh w m x v c : wf w m → objs w !! x = Some v →
  hdel (v_ptr v) (<[nextb w:=c]> (heap w)) = <[nextb w:=c]> (hdel (v_ptr v) (heap w)).
Proof.
  intros Hw Hx. pose proof (wf_other _ _ _ _ Hw Hx) as Ho. unfold other_block in Ho.
  destruct (v_ptr v) as [b|]; cbn [hdel]; [|done]. rewrite delete_insert_ne; [done|congruence].
Qed.
Lemma vrep_fresh w m x v l c : wf w m → objs w !! x = Some v → vrep (heap w) v l →
  vrep (<[nextb w:=c]> (heap w)) v l.
Proof.
  intros Hw Hx Hr. eapply vrep_ext; [exact Hr|]. intros b Hb.
  pose proof (wf_other _ _ _ _ Hw Hx) as Ho. unfold other_block in Ho.
  rewrite lookup_insert_ne; [done|congruence].
Qed.

(** ** resize *)
Lemma resize_impl_run x n func (a : V) w m l v :
  wf w m → m !! x = Some l → objs w !! x = Some v →
  copyfunc (λ p, func p (n - length l)) (replicate (n - length l) a) (heap w) →
  run_to (resize_impl x n func) w
    (λ _ w', wf w' (<[x:=take n l ++ replicate (n - length l) a]> m) ∧ later w w' ∧
       ((n ≤ length l ∧ resized x v n w w') ∨
        (length l < n ∧ objs w' = <[x:=Vec (Some (running (nextb w))) (Some (nextb w)) (min_cap `max` n) n]> (objs w) ∧
         nalloc w' = S (nalloc w) ∧ nreloc w' = nreloc w + length l)))
    (λ e w', length l < n ∧ kept w w' ∧ why n e w w').
Proof.
  intros Hw Hl Hx [Hf _].
  pose proof (wf_rep _ _ _ _ _ Hw Hx Hl) as Hr. pose proof (vrep_siz _ _ _ Hr) as Hs.
  unfold resize_impl. eapply run_to_bind_ok; [by apply get_vec_eq|]. rewrite Hs.
  destruct (Nat.eqb_spec n (length l)) as [->|Hne].
  { apply run_to_ret. rewrite Nat.sub_diag. cbn [replicate]. rewrite app_nil_r, firstn_all. sp.
    - by rewrite insert_id.
    - apply later_refl.
    - left. split; [done|]. unfold resized. rewrite (set_size_id _ _ _ Hr). rewrite insert_id by done. sp; done. }
  destruct (Nat.ltb_spec n (length l)) as [Hlt|Hge].
  { apply run_to_bind. eapply run_to_mono; [apply (erase_run x n (length l) w m l v never); [done..|lia|lia]| |done].
    intros r w' (_ & Hw' & Hrs). apply run_to_ret.
    rewrite decide_False in Hw' by lia. rewrite drop_all, app_nil_r in Hw'.
    replace (n - length l) with 0 by lia. cbn [replicate]. rewrite app_nil_r.
    replace (length l - (length l - n)) with n in Hrs by lia.
    sp; [done|by eapply resized_later|]. left. split; [lia|done]. }
  apply run_to_bind. apply storage_new_run; [lia|..].
  - intros Hlim. sp; [lia| |done]. unfold kept; sp; [done|done|apply later_same_refl].
  - intros _ Hal. sp; [lia| |].
    + unfold kept; sp; [done|done|]. unfold later_same, later, alloc_failed. cbn. lia.
    + exists (nalloc w). cbn. split; [lia|done].
  - intros Hle Hal. remember (min_cap `max` n) as cap eqn:Hcap. cbn [v_ptr].
    rewrite replicate_length in Hf.
    apply run_to_bind, run_to_on_exn.
    eapply run_to_mono.
    + rewrite <-(replicate_length (length l) (@None V)) at 1.
      apply (Hf (allocated cap w) (nextb w) (replicate (length l) None) (replicate (cap - n) None)).
      * intros s u Hsrc. apply src_val_insert; [done|]. by eapply wf_fresh.
      * unfold allocated. cbn [heap app]. rewrite lookup_insert. f_equal.
        rewrite <-!replicate_add. f_equal. lia.
    + intros _ w1 ->. cbn [set_size v_dealloc v_ptr v_cap].
      eapply run_to_eq.
      { apply (reloc_all_eq _ x v l (nextb w) ((Some <$> replicate (n - length l) a) ++ replicate (cap - n) None)).
        - exact Hx.
        - cbn [heap with_nctor hins with_heap allocated]. rewrite insert_insert. by eapply vrep_fresh.
        - by eapply wf_other.
        - cbn [heap with_nctor hins with_heap allocated]. by rewrite lookup_insert. }
      cbn [objs heap nextb nctor nalloc nreloc with_nctor hins with_heap allocated].
      assert (Hlen : length (l ++ replicate (n - length l) a) = n) by (rewrite app_length, replicate_length; lia).
      assert (Hcell : (Some <$> l) ++ (Some <$> replicate (n - length l) a) ++ replicate (cap - n) None =
                      cells (l ++ replicate (n - length l) a) cap).
      { unfold cells. by rewrite fmap_app, <-app_assoc, Hlen. }
      rewrite Hcell, insert_insert, (hdel_fresh _ _ _ _ _ Hw Hx), insert_insert.
      rewrite (firstn_all2 l) by lia. sp.
      * pose proof (wf_realloc w m x v l (l ++ replicate (n - length l) a) cap
          (nctor w + (n - length l)) (S (nalloc w)) (nreloc w + length l) Hw Hl Hx) as H.
        rewrite Hlen in H. pose proof Hcfg as (_ & _ & ?). apply H; lia.
      * unfold later. cbn. lia.
      * right. subst cap. sp; [lia|done|done|done].
    + intros e w1 (-> & k & Hk & Hkf & ->).
      assert (Hr' : vrep (heap (with_nctor (S k) (allocated cap w))) (Vec (Some (running (nextb w))) (Some (nextb w)) cap 0) []).
      { unfold vrep. cbn [v_ptr v_dealloc v_siz v_cap length heap with_nctor allocated].
        rewrite lookup_insert, cells_nil. pose proof Hcfg as (_ & _ & ?). split_and!; try done; lia. }
      eapply run_to_eq; [eapply storage_dtor_eq, Hr'|].
      cbn [hdel v_ptr]. sp; [lia| |].
      * unfold kept; sp; [done| |].
        ++ cbn [heap with_heap with_nctor allocated]. rewrite delete_insert; [done|]. by eapply wf_fresh.
        ++ unfold later_same, later. cbn. cbn in Hk. lia.
      * exists k. cbn. cbn in Hk. split; [lia|done].
Qed.
Lemma resize_run x n w m l v :
  wf w m → m !! x = Some l → objs w !! x = Some v →
  run_to (vec_resize x n) w
    (λ _ w', wf w' (<[x:=take n l ++ replicate (n - length l) dflt]> m) ∧ later w w' ∧
       ((n ≤ length l ∧ resized x v n w w') ∨
        (length l < n ∧ objs w' = <[x:=Vec (Some (running (nextb w))) (Some (nextb w)) (min_cap `max` n) n]> (objs w) ∧
         nalloc w' = S (nalloc w) ∧ nreloc w' = nreloc w + length l)))
    (λ e w', length l < n ∧ kept w w' ∧ why n e w w').
Proof.
  intros Hw Hl Hx. apply resize_impl_run; [done..|].
  pose proof (copyfunc_uninit (λ _, SVal dflt) (replicate (n - length l) dflt) (heap w)) as H.
  rewrite replicate_length in H. apply H. by apply fill_src.
Qed.
Lemma resize_fill_run x n a a' w m l v :
  wf w m → m !! x = Some l → objs w !! x = Some v → sarg m a = Some a' →
  run_to (vec_resize_fill x n a) w
    (λ _ w', wf w' (<[x:=take n l ++ replicate (n - length l) a']> m) ∧ later w w' ∧
       ((n ≤ length l ∧ resized x v n w w') ∨
        (length l < n ∧ objs w' = <[x:=Vec (Some (running (nextb w))) (Some (nextb w)) (min_cap `max` n) n]> (objs w) ∧
         nalloc w' = S (nalloc w) ∧ nreloc w' = nreloc w + length l)))
    (λ e w', length l < n ∧ kept w w' ∧ why n e w w').
Proof.
  intros Hw Hl Hx Ha. destruct (bind_arg_eq _ _ _ _ Hw Ha) as (s & Hb & Hsrc).
  unfold vec_resize_fill. eapply run_to_bind_ok; [exact Hb|].
  apply resize_impl_run; [done..|].
  pose proof (copyfunc_uninit (λ _, s) (replicate (n - length l) a') (heap w)) as H.
  rewrite replicate_length in H. apply H. by apply fill_src.
Qed.

(** ** reserve and shrink_to_fit *)
Lemma reserve_run x n w m l v :
  wf w m → m !! x = Some l → objs w !! x = Some v →
  run_to (vec_reserve x n) w
    (λ _ w', wf w' m ∧ later w w' ∧
       ((n ≤ v_cap v ∧ w' = w) ∨
        (v_cap v < n ∧ objs w' = <[x:=Vec (Some (running (nextb w))) (Some (nextb w)) (min_cap `max` n) (length l)]> (objs w) ∧
         nalloc w' = S (nalloc w) ∧ nreloc w' = nreloc w + length l)))
    (λ e w', v_cap v < n ∧ kept w w' ∧ why n e w w').
Proof.
  intros Hw Hl Hx.
  pose proof (wf_rep _ _ _ _ _ Hw Hx Hl) as Hr. pose proof (vrep_siz _ _ _ Hr) as Hs.
  pose proof (vrep_le _ _ _ Hr) as Hle0.
  unfold vec_reserve. eapply run_to_bind_ok; [by apply get_vec_eq|]. rewrite Hs.
  destruct (Nat.leb_spec n (v_cap v)) as [Hn|Hn].
  { apply run_to_ret. sp; [done|apply later_refl|]. left. done. }
  apply run_to_bind. apply storage_new_run; [lia|..].
  - intros Hlim. sp; [lia| |done]. unfold kept; sp; [done|done|apply later_same_refl].
  - intros _ Hal. sp; [lia| |].
    + unfold kept; sp; [done|done|]. unfold later_same, later, alloc_failed. cbn. lia.
    + exists (nalloc w). cbn. split; [lia|done].
  - intros Hle Hal. remember (min_cap `max` n) as cap eqn:Hcap. cbn [v_ptr].
    match goal with |- run_to (bind ?m ?k) _ _ _ =>
      assert (Hm : m = uninit_move_n (v_ptr v, 0) (length l) (Some (nextb w), 0)) end.
    { destruct (Nat.eqb_spec (length l) 0) as [e|]; [rewrite e|]; done. }
    rewrite Hm. eapply run_to_eq.
    { apply (reloc_all_eq _ x v l (nextb w) (replicate (cap - length l) None)).
      - exact Hx.
      - by eapply vrep_fresh.
      - by eapply wf_other.
      - cbn [heap allocated]. rewrite lookup_insert, <-replicate_add. do 2 f_equal. lia. }
    cbn [set_size v_dealloc v_ptr v_cap objs heap nextb nctor nalloc nreloc allocated].
    rewrite (hdel_fresh _ _ _ _ _ Hw Hx), insert_insert. sp.
    + rewrite <-(insert_id m x l) by done. pose proof Hcfg as (_ & _ & ?).
      eapply (wf_realloc w m x v l l cap); [done..|lia|lia].
    + unfold later. cbn. lia.
    + right. subst cap. sp; [lia|done|done|done].
Qed.

Lemma shrink_run x w m l v E :
  wf w m → m !! x = Some l → objs w !! x = Some v →
  (v_cap v ≤ 2 * length l ∨ l = [] ∨ alloc_fails (nalloc w) = false) →
  run_to (vec_shrink_to_fit x) w
    (λ _ w', wf w' m ∧ later w w' ∧
       ((v_cap v ≤ 2 * length l ∧ w' = w) ∨
        (2 * length l < v_cap v ∧ l = [] ∧ objs w' = <[x:=null_vec]> (objs w)) ∨
        (2 * length l < v_cap v ∧ l ≠ [] ∧
         objs w' = <[x:=Vec (Some (running (nextb w))) (Some (nextb w)) (min_cap `max` length l) (length l)]> (objs w)))) E.
Proof.
  intros Hw Hl Hx Hok.
  pose proof (wf_rep _ _ _ _ _ Hw Hx Hl) as Hr. pose proof (vrep_siz _ _ _ Hr) as Hs.
  pose proof (vrep_le _ _ _ Hr) as Hle0. pose proof (vrep_max _ _ _ Hr) as Hmax.
  apply run_to_noexcept. eapply run_to_bind_ok; [by apply get_vec_eq|]. rewrite Hs.
  pose proof (max_cap_bound Hcfg). rewrite wadd_small by lia.
  destruct (Nat.leb_spec (v_cap v) (length l + length l)) as [Hn|Hn].
  { apply run_to_ret. sp; [done|apply later_refl|]. left. split; [lia|done]. }
  destruct (decide (l = [])) as [->|Hne].
  - cbn [length]. unfold storage_new. cbn [Nat.eqb]. eapply run_to_bind_ok; [done|].
    eapply run_to_bind_ok; [done|].
    eapply run_to_eq; [eapply commit_eq; [exact Hx|exact Hr]|].
    change (set_size null_vec 0) with null_vec. sp.
    + split; cbn [objs heap nextb with_objs with_heap].
      * rewrite <-(insert_id m x []) by done. eapply inv_reset; [apply (proj1 Hw)|done|done].
      * intros k c Hc. apply (proj2 Hw k c). destruct (v_ptr v) as [b|]; cbn [hdel] in Hc; [|done].
        by apply lookup_delete_Some in Hc as [_ ?].
    + unfold later. cbn. lia.
    + right. left. sp; [cbn [length] in *; lia|done|done].
  - assert (length l ≠ 0) by (by destruct l).
    assert (Hal : alloc_fails (nalloc w) = false) by (destruct Hok as [?|[?|?]]; [lia|done|done]).
    apply run_to_bind. apply storage_new_run; [lia| | |]; [intros; exfalso; lia|intros _ Hal'; congruence|].
    intros _ _. remember (min_cap `max` length l) as cap eqn:Hcap. cbn [v_ptr].
    eapply run_to_eq.
    { apply (reloc_all_eq _ x v l (nextb w) (replicate (cap - length l) None)).
      - exact Hx.
      - by eapply vrep_fresh.
      - by eapply wf_other.
      - cbn [heap allocated]. rewrite lookup_insert, <-replicate_add. do 2 f_equal. lia. }
    cbn [set_size v_dealloc v_ptr v_cap objs heap nextb nctor nalloc nreloc allocated].
    rewrite (hdel_fresh _ _ _ _ _ Hw Hx), insert_insert. sp.
    + rewrite <-(insert_id m x l) by done. pose proof Hcfg as (_ & _ & ?).
      eapply (wf_realloc w m x v l l cap); [done..|lia|lia].
    + unfold later. cbn. lia.
    + right. right. subst cap. sp; [lia|done|done].
Qed.
Lemma shrink_terminates x w m l v :
  wf w m → m !! x = Some l → objs w !! x = Some v →
  2 * length l < v_cap v → l ≠ [] → alloc_fails (nalloc w) = true →
  vec_shrink_to_fit x w = Terminated.
Proof.
  intros Hw Hl Hx Hlt Hne Hal.
  pose proof (wf_rep _ _ _ _ _ Hw Hx Hl) as Hr. pose proof (vrep_siz _ _ _ Hr) as Hs.
  pose proof (vrep_le _ _ _ Hr) as Hle0. pose proof (vrep_max _ _ _ Hr) as Hmax.
  unfold vec_shrink_to_fit, noexcept. erewrite bind_ok by by apply get_vec_eq. rewrite Hs.
  pose proof (max_cap_bound Hcfg). rewrite wadd_small by lia.
  rewrite (proj2 (Nat.leb_gt _ _)) by lia.
  assert (length l ≠ 0) by (by destruct l).
  unfold bind at 1. unfold storage_new. rewrite (proj2 (Nat.eqb_neq _ _)) by done.
  rewrite (proj2 (Nat.ltb_ge _ _)) by lia.
  unfold bind, this_module, calloc. rewrite Hal. done.
Qed.

(** ** Swapping and moving *)
Definition swapped (x y z : nat) : nat := if decide (z = x) then y else if decide (z = y) then x else z.
Lemma swapped_inj x y z z' : swapped x y z = swapped x y z' → z = z'.
Proof. unfold swapped. repeat case_decide; congruence. Qed.
Lemma swapped_inv x y z : swapped x y (swapped x y z) = z.
Proof. unfold swapped. repeat case_decide; congruence. Qed.
Lemma inv_swap o h m x y a b l k :
  inv o h m → o !! x = Some a → o !! y = Some b → m !! x = Some l → m !! y = Some k →
  inv (<[y:=a]> (<[x:=b]> o)) h (<[y:=l]> (<[x:=k]> m)).
Proof.
  intros Hi Hx Hy Hl Hk.
  assert (Ho : ∀ z, <[y:=a]> (<[x:=b]> o) !! z = o !! swapped x y z).
  { intros z. unfold swapped. repeat case_decide; subst.
    - destruct (decide (x = y)) as [->|]; by simplify_map_eq.
    - by simplify_map_eq.
    - by simplify_map_eq. }
  assert (Hm : ∀ z, <[y:=l]> (<[x:=k]> m) !! z = m !! swapped x y z).
  { intros z. unfold swapped. repeat case_decide; subst.
    - destruct (decide (x = y)) as [->|]; by simplify_map_eq.
    - by simplify_map_eq.
    - by simplify_map_eq. }
  split.
  - intros z v. rewrite Ho, Hm. apply (inv_some _ _ _ Hi).
  - intros z v. rewrite Ho, Hm. apply (inv_dom _ _ _ Hi).
  - intros z z' v u c. rewrite !Ho. intros H1 H2 H3 H4.
    apply (swapped_inj x y). by eapply (inv_sep _ _ _ Hi).
  - intros c d Hc. destruct (inv_own _ _ _ Hi _ _ Hc) as (z & v & Hz & Hv).
    exists (swapped x y z), v. by rewrite Ho, swapped_inv.
Qed.

Lemma swap_run x y w m l k a b E :
  wf w m → m !! x = Some l → m !! y = Some k → objs w !! x = Some a → objs w !! y = Some b →
  run_to (vec_swap x y) w
    (λ _ w', wf w' (<[x:=k]> (<[y:=l]> m)) ∧ later w w' ∧ objs w' = <[y:=a]> (<[x:=b]> (objs w)) ∧ heap w' = heap w) E.
Proof.
  intros Hw Hl Hk Hx Hy. unfold vec_swap.
  eapply run_to_bind_ok; [by apply get_vec_eq|]. eapply run_to_bind_ok; [by apply get_vec_eq|].
  rewrite !vec_eta.
  unfold put_vec. eapply run_to_bind_ok; [done|]. eapply run_to_eq; [done|]. sp; [|unfold later; cbn; lia|done|done].
  split; [|apply (proj2 Hw)]. cbn [objs heap with_objs].
  assert (<[x:=k]> (<[y:=l]> m) = <[y:=l]> (<[x:=k]> m)) as ->.
  { destruct (decide (x = y)) as [->|]; [|by rewrite insert_commute].
    rewrite !insert_insert. congruence. }
  eapply inv_swap; [apply (proj1 Hw)|done..].
Qed.

Lemma wf_dtor w m x v l : wf w m → objs w !! x = Some v → m !! x = Some l →
  wf (with_objs (<[x:=null_vec]> (objs w)) (with_heap (hdel (v_ptr v) (heap w)) w)) (<[x:=[]]> m).
Proof.
  intros Hw Hx Hl. split; cbn [objs heap nextb with_objs with_heap].
  - eapply inv_reset; [apply (proj1 Hw)|done|done].
  - intros b c Hc. apply (proj2 Hw b c). destruct (v_ptr v); cbn [hdel] in Hc; [|done].
    by apply lookup_delete_Some in Hc as [_ ?].
Qed.

Lemma move_assign_run x y w m l k a b E :
  wf w m → m !! x = Some l → m !! y = Some k → objs w !! x = Some a → objs w !! y = Some b →
  run_to (vec_move_assign x y) w
    (λ _ w', wf w' (if decide (x = y) then m else <[x:=k]> (<[y:=[]]> m)) ∧ later w w' ∧ 
       objs w' = (if decide (x = y) then objs w else <[y:=null_vec]> (<[x:=b]> (objs w))) ∧
       nalloc w' = nalloc w ∧ nreloc w' = nreloc w ∧ nctor w' = nctor w) E.
Proof.
  intros Hw Hl Hk Hx Hy. unfold vec_move_assign. destruct (decide (x = y)) as [<-|Hne].
  { eapply run_to_bind_ok; [by apply get_vec_eq|]. apply run_to_ret. sp; try done; apply later_refl. }
  pose proof (wf_rep _ _ _ _ _ Hw Hx Hl) as Hr.
  eapply run_to_bind_ok; [by apply get_vec_eq|].
  unfold storage_take. apply run_to_bind.
  eapply run_to_bind_ok; [by apply get_vec_eq|].
  eapply run_to_bind_ok; [by eapply storage_dtor_eq|].
  rewrite vec_eta. unfold put_vec. eapply run_to_bind_ok; [done|]. apply run_to_ret. eapply run_to_eq; [done|].
  cbn [objs heap nextb nalloc nreloc nctor with_objs with_heap].
  sp; [|unfold later; cbn; lia|done|done|done|done].
  pose proof (wf_dtor _ _ _ _ _ Hw Hx Hl) as Hw1.
  split; cbn [objs heap nextb with_objs with_heap]; [|apply (proj2 Hw1)].
  pose proof (inv_swap _ _ _ x y null_vec b [] k (proj1 Hw1)) as H.
  cbn [objs heap with_objs with_heap] in H. rewrite !insert_insert in H. 
  rewrite (insert_commute m x y) by done. apply H.
  - by rewrite lookup_insert.
  - by rewrite lookup_insert_ne.
  - by rewrite lookup_insert.
  - by rewrite lookup_insert_ne.
Qed.

Lemma new_move_run x y w m k b E :
  wf w m → m !! x = None → m !! y = Some k → objs w !! y = Some b →
  run_to (vec_new_move x y) w
    (λ _ w', wf w' (<[x:=k]> (<[y:=[]]> m)) ∧ later w w' ∧
       objs w' = <[x:=b]> (<[y:=null_vec]> (objs w)) ∧ heap w' = heap w ∧
       nalloc w' = nalloc w ∧ nreloc w' = nreloc w ∧ nctor w' = nctor w) E.
Proof.
  intros Hw Hx Hk Hy. assert (x ≠ y) as Hxy by congruence. unfold vec_new_move.
  eapply run_to_bind_ok; [by apply get_vec_eq|]. rewrite vec_eta.
  unfold put_vec. eapply run_to_bind_ok; [done|]. eapply run_to_eq; [done|].
  cbn [objs heap nextb nalloc nreloc nctor with_objs].
  sp; [|unfold later; cbn; lia|done..].
  split; cbn [objs heap nextb with_objs]; [|apply (proj2 Hw)].
  pose proof (inv_new _ _ _ x (proj1 Hw) Hx) as H1.
  pose proof (inv_swap _ _ _ x y null_vec b [] k H1) as H.
  rewrite (insert_commute m x y), (insert_commute _ x y) by done.
  rewrite !insert_insert in H. apply H.
  - by rewrite lookup_insert.
  - by rewrite lookup_insert_ne.
  - by rewrite lookup_insert.
  - by rewrite lookup_insert_ne.
Qed.

Lemma destroy_run x w m l v E :
  wf w m → m !! x = Some l → objs w !! x = Some v →
  run_to (vec_destroy x) w
    (λ _ w', wf w' (delete x m) ∧ later w w' ∧ objs w' = delete x (objs w) ∧ heap w' = hdel (v_ptr v) (heap w) ∧
       nalloc w' = nalloc w ∧ nctor w' = nctor w) E.
Proof.
  intros Hw Hl Hx. pose proof (wf_rep _ _ _ _ _ Hw Hx Hl) as Hr.
  unfold vec_destroy. eapply run_to_bind_ok; [by apply get_vec_eq|].
  eapply run_to_bind_ok; [by eapply storage_dtor_eq|]. unfold del_vec. eapply run_to_eq; [done|].
  cbn [objs heap nextb nalloc nctor with_objs with_heap].
  sp; [|unfold later; cbn; lia|done..].
  split; cbn [objs heap nextb with_objs with_heap].
  - by apply inv_drop; [apply (proj1 Hw)|].
  - intros b c Hc. apply (proj2 Hw b c). destruct (v_ptr v); cbn [hdel] in Hc; [|done].
    by apply lookup_delete_Some in Hc as [_ ?].
Qed.

(** ** Constructors *)
Lemma wf_new w m x : wf w m → m !! x = None → wf (with_objs (<[x:=null_vec]> (objs w)) w) (<[x:=[]]> m).
Proof. intros Hw Hx. split; [|apply (proj2 Hw)]. by apply inv_new; [apply (proj1 Hw)|]. Qed.

Lemma why_mono lim lim' e w0 w1 w2 w3 :
  why lim e w1 w2 → later w0 w1 → later w2 w3 → lim ≤ lim' → why lim' e w0 w3.
Proof.
  unfold later. intros Hy (? & ? & ?) (? & ? & ?) Hl. destruct e; cbn [why] in *; try done.
  - lia.
  - destruct Hy as (k & ? & ?). exists k. split; [lia|done].
  - destruct Hy as (k & ? & ?). exists k. split; [lia|done].
Qed.

(** [body] fills the new, empty vector [x]; if it throws it leaves [x] in some valid state *)
Lemma construct_vec_run x body w m lim (Q : unit → world → Prop) :
  wf w m → m !! x = None →
  let w1 := with_objs (<[x:=null_vec]> (objs w)) w in
  run_to body w1 Q
    (λ e w', ∃ l' v', wf w' (<[x:=l']> m) ∧ objs w' = <[x:=v']> (objs w) ∧ later w w' ∧ why lim e w w') →
  run_to (construct_vec x body) w Q
    (λ e w', wf w' m ∧ objs w' = objs w ∧ later w w' ∧ why lim e w w').
Proof.
  intros Hw Hx w1 Hb. unfold construct_vec, put_vec. eapply run_to_bind_ok; [done|].
  apply run_to_on_exn. eapply run_to_mono; [exact Hb|done|].
  intros e w' (l' & v' & Hw' & Ho & Hlt & Hwhy).
  eapply run_to_mono; [apply (destroy_run x w' (<[x:=l']> m) l' v' never Hw')|..|done].
  - by rewrite lookup_insert.
  - by rewrite Ho, lookup_insert.
  - intros _ w'' (Hw'' & Hlt' & Ho' & _ & Hna & Hnc).
    rewrite delete_insert in Hw'' by done. sp; [done| |by eapply later_trans|].
    + rewrite Ho', Ho, delete_insert; [done|]. eapply inv_none; [apply (proj1 Hw)|done].
    + eapply why_mono; [exact Hwhy|apply later_refl|exact Hlt'|done].
Qed.

Lemma new_range_run x r vs w m :
  wf w m → m !! x = None → srange m r = Some vs →
  run_to (vec_new_range x r) w
    (λ _ w', wf w' (<[x:=vs]> m) ∧ later w w' ∧ ∃ v', objs w' = <[x:=v']> (objs w))
    (λ e w', wf w' m ∧ objs w' = objs w ∧ later w w' ∧ why (length vs) e w w').
Proof.
  intros Hw Hx Hr. unfold vec_new_range. apply construct_vec_run; [done|done|].
  set (w1 := with_objs _ _).
  assert (Hr1 : srange (<[x:=[]]> m) r = Some vs).
  { destruct r as [l|y i n]; cbn [srange] in *; [done|]. rewrite lookup_insert_ne; [done|]. intros ->.
    by rewrite Hx in Hr. }
  eapply run_to_mono; [apply (assign_range_run Hcfg x r vs w1 (<[x:=[]]> m) [] null_vec)|..].
  - by apply wf_new.
  - by rewrite lookup_insert.
  - unfold w1. cbn [objs with_objs]. by rewrite lookup_insert.
  - done.
  - intros _ w' (Hw' & Hlt & Hrep). rewrite insert_insert in Hw'. sp; [done|exact Hlt|].
    destruct Hrep as [(_ & Ho & _)|(_ & Ho & _)]; unfold w1 in Ho; cbn [objs with_objs] in Ho;
      rewrite insert_insert in Ho; eauto.
  - intros e w' (Hk & Hwhy). exists [], null_vec. sp; [|apply Hk|apply Hk|exact Hwhy].
    eapply kept_wf; [|exact Hk]. by apply wf_new.
Qed.

Lemma new_count_run x n w m :
  wf w m → m !! x = None →
  run_to (vec_new_count x n) w
    (λ _ w', wf w' (<[x:=replicate n dflt]> m) ∧ later w w' ∧ ∃ v', objs w' = <[x:=v']> (objs w))
    (λ e w', wf w' m ∧ objs w' = objs w ∧ later w w' ∧ why n e w w').
Proof.
  intros Hw Hx. unfold vec_new_count. apply construct_vec_run; [done|done|].
  set (w1 := with_objs _ _).
  eapply run_to_mono; [apply (resize_run x n w1 (<[x:=[]]> m) [] null_vec)|..].
  - by apply wf_new.
  - by rewrite lookup_insert.
  - unfold w1. cbn [objs with_objs]. by rewrite lookup_insert.
  - intros _ w' (Hw' & Hlt & Hrep). rewrite insert_insert in Hw'.
    rewrite firstn_nil in Hw'. cbn [length app] in Hw'. rewrite Nat.sub_0_r in Hw'. sp; [done|exact Hlt|].
    destruct Hrep as [(_ & Ho & _)|(_ & Ho & _)]; unfold w1 in Ho; cbn [objs with_objs] in Ho;
      rewrite insert_insert in Ho; eauto.
  - intros e w' (_ & Hk & Hwhy). exists [], null_vec. sp; [|apply Hk|apply Hk|exact Hwhy].
    eapply kept_wf; [|exact Hk]. by apply wf_new.
Qed.
Lemma new_fill_run x n a a' w m :
  wf w m → m !! x = None → sarg m a = Some a' →
  run_to (vec_new_fill x n a) w
    (λ _ w', wf w' (<[x:=replicate n a']> m) ∧ later w w' ∧ ∃ v', objs w' = <[x:=v']> (objs w))
    (λ e w', wf w' m ∧ objs w' = objs w ∧ later w w' ∧ why n e w w').
Proof.
  intros Hw Hx Ha. unfold vec_new_fill. apply construct_vec_run; [done|done|].
  set (w1 := with_objs _ _).
  assert (Ha1 : sarg (<[x:=[]]> m) a = Some a').
  { destruct a as [u|y i]; cbn [sarg] in *; [done|]. rewrite lookup_insert_ne; [done|]. intros ->.
    by rewrite Hx in Ha. }
  eapply run_to_mono; [apply (resize_fill_run x n a a' w1 (<[x:=[]]> m) [] null_vec)|..].
  - by apply wf_new.
  - by rewrite lookup_insert.
  - unfold w1. cbn [objs with_objs]. by rewrite lookup_insert.
  - done.
  - intros _ w' (Hw' & Hlt & Hrep). rewrite insert_insert in Hw'.
    rewrite firstn_nil in Hw'. cbn [length app] in Hw'. rewrite Nat.sub_0_r in Hw'. sp; [done|exact Hlt|].
    destruct Hrep as [(_ & Ho & _)|(_ & Ho & _)]; unfold w1 in Ho; cbn [objs with_objs] in Ho;
      rewrite insert_insert in Ho; eauto.
  - intros e w' (_ & Hk & Hwhy). exists [], null_vec. sp; [|apply Hk|apply Hk|exact Hwhy].
    eapply kept_wf; [|exact Hk]. by apply wf_new.
Qed.

(** push_back in a loop *)
Lemma placed_objs x v len n w w' : placed x v len n w w' → ∃ v', objs w' = <[x:=v']> (objs w).
Proof. intros [(_ & ? & _)|(_ & ? & _)]; eauto. Qed.
Lemma push_all_run x vs : ∀ w m l v,
  wf w m → m !! x = Some l → objs w !! x = Some v →
  run_to (push_all x vs) w
    (λ _ w', wf w' (<[x:=l ++ vs]> m) ∧ later w w' ∧ ∃ v', objs w' = <[x:=v']> (objs w))
    (λ e w', ∃ l' v', wf w' (<[x:=l']> m) ∧ objs w' = <[x:=v']> (objs w) ∧ later w w' ∧
       why (2 * (length l + length vs)) e w w').
Proof.
  induction vs as [|a vs IH]; intros w m l v Hw Hl Hx; cbn [push_all].
  { apply run_to_ret. rewrite app_nil_r. sp; [by rewrite insert_id|apply later_refl|].
    exists v. by rewrite insert_id. }
  apply run_to_bind. eapply run_to_mono.
  { apply (push_back_run Hcfg x (ECopy (CVal a)) a w m m l v); done. }
  - intros _ w1 (_ & Hw1 & Hlt1 & Hpl).
    destruct (placed_objs _ _ _ _ _ _ Hpl) as [v1 Hv1].
    eapply run_to_mono; [apply (IH w1 _ (l ++ [a]) v1 Hw1)|..].
    + by rewrite lookup_insert.
    + by rewrite Hv1, lookup_insert.
    + intros _ w2 (Hw2 & Hlt2 & v2 & Hv2). rewrite insert_insert, <-app_assoc in Hw2.
      sp; [done|by eapply later_trans|]. exists v2. by rewrite Hv2, Hv1, insert_insert.
    + intros e w2 (l' & v2 & Hw2 & Hv2 & Hlt2 & Hwhy). exists l', v2.
      rewrite insert_insert in Hw2. sp; [done|by rewrite Hv2, Hv1, insert_insert|by eapply later_trans|].
      eapply why_mono; [exact Hwhy|done|apply later_refl|]. rewrite app_length. cbn [length]. lia.
  - intros e w1 (Hk & Hwhy). exists l, v. sp.
    + rewrite insert_id by done. by eapply kept_wf.
    + rewrite insert_id by done. apply Hk.
    + apply Hk.
    + eapply why_mono; [exact Hwhy|apply later_refl|apply later_refl|]. unfold grown. cbn [length]. lia.
Qed.
Lemma new_input_run x vs w m :
  wf w m → m !! x = None →
  run_to (vec_new_input x vs) w
    (λ _ w', wf w' (<[x:=vs]> m) ∧ later w w' ∧ ∃ v', objs w' = <[x:=v']> (objs w))
    (λ e w', wf w' m ∧ objs w' = objs w ∧ later w w' ∧ why (2 * length vs) e w w').
Proof.
  intros Hw Hx. unfold vec_new_input. apply construct_vec_run; [done|done|].
  set (w1 := with_objs _ _).
  eapply run_to_mono; [apply (push_all_run x vs w1 (<[x:=[]]> m) [] null_vec)|..].
  - by apply wf_new.
  - by rewrite lookup_insert.
  - unfold w1. cbn [objs with_objs]. by rewrite lookup_insert.
  - intros _ w' (Hw' & Hlt & v' & Ho). rewrite insert_insert in Hw'. sp; [done|exact Hlt|].
    exists v'. unfold w1 in Ho. cbn [objs with_objs] in Ho. by rewrite insert_insert in Ho.
  - intros e w' (l' & v' & Hw' & Ho & Hlt & Hwhy). exists l', v'. rewrite insert_insert in Hw'.
    sp; [done| |exact Hlt|exact Hwhy].
    unfold w1 in Ho. cbn [objs with_objs] in Ho. by rewrite insert_insert in Ho.
Qed.

Lemma temp_fresh w m : wf w m → m !! fresh (dom (objs w)) = None.
Proof.
  intros [Hi _]. destruct (m !! fresh (dom (objs w))) eqn:E; [|done].
  destruct (inv_dom _ _ _ Hi _ _ E) as [v Hv].
  exfalso. apply (is_fresh (dom (objs w))). apply elem_of_dom. eauto.
Qed.
Lemma assign_input_run x vs w m l :
  wf w m → m !! x = Some l →
  run_to (vec_assign_input x vs) w
    (λ _ w', wf w' (<[x:=vs]> m) ∧ later w w')
    (λ e w', wf w' m ∧ objs w' = objs w ∧ later w w' ∧ why (2 * length vs) e w w').
Proof.
  intros Hw Hl. unfold vec_assign_input, temp_name.
  eapply run_to_bind_ok; [done|]. pose proof (temp_fresh _ _ Hw) as Ht.
  remember (fresh (dom (objs w))) as t eqn:Et. clear Et.
  assert (x ≠ t) by congruence.
  apply run_to_bind. eapply run_to_mono; [by apply new_input_run|..|done].
  intros _ w1 (Hw1 & Hlt1 & v1 & Ho1).
  destruct (wf_get _ _ _ _ Hw Hl) as (v & Hv & _).
  apply run_to_bind. eapply run_to_mono; [apply (move_assign_run x t w1 (<[t:=vs]> m) l vs v v1 never Hw1)|..|done].
  { by rewrite lookup_insert_ne. }
  { by rewrite lookup_insert. }
  { by rewrite Ho1, lookup_insert_ne. }
  { by rewrite Ho1, lookup_insert. }
  intros _ w2 (Hw2 & Hlt2 & Ho2 & _). rewrite decide_False in Hw2 by done. rewrite decide_False in Ho2 by done.
  rewrite insert_insert in Hw2.
  eapply run_to_mono; [apply (destroy_run t w2 _ [] null_vec never Hw2)|..|done].
  { rewrite lookup_insert_ne by done. by rewrite lookup_insert. }
  { by rewrite Ho2, lookup_insert. }
  intros _ w3 (Hw3 & Hlt3 & _). split.
  - rewrite delete_insert_ne, delete_insert in Hw3 by done. exact Hw3.
  - eapply later_trans; [exact Hlt1|]. by eapply later_trans.
Qed.

Lemma insert_input_run x off vs w m l :
  wf w m → m !! x = Some l → off ≤ length l →
  run_to (vec_insert_input x off vs) w
    (λ r w', r = off ∧ wf w' (<[x:=insert_at off vs l]> m) ∧ later w w')
    (λ e w', wf w' m ∧ objs w' = objs w ∧ later w w' ∧
       why ((2 * length vs) `max` grown (length l) (length vs)) e w w').
Proof.
  intros Hw Hl Hoff. unfold vec_insert_input, temp_name.
  eapply run_to_bind_ok; [done|]. pose proof (temp_fresh _ _ Hw) as Ht.
  remember (fresh (dom (objs w))) as t eqn:Et. clear Et.
  assert (x ≠ t) by congruence.
  apply run_to_bind. eapply run_to_mono; [by apply new_input_run|..].
  2:{ intros e w' (? & ? & ? & ?). sp; try done. eapply why_mono; [done|apply later_refl|apply later_refl|lia]. }
  intros _ w1 (Hw1 & Hlt1 & v1 & Ho1).
  destruct (wf_get _ _ _ _ Hw Hl) as (v & Hv & _).
  assert (Hv1 : objs w1 !! t = Some v1) by (by rewrite Ho1, lookup_insert).
  assert (Hvx : objs w1 !! x = Some v) by (by rewrite Ho1, lookup_insert_ne).
  assert (Hlt : <[t:=vs]> m !! t = Some vs) by (by rewrite lookup_insert).
  assert (Hlx : <[t:=vs]> m !! x = Some l) by (by rewrite lookup_insert_ne).
  pose proof (wf_rep _ _ _ _ _ Hw1 Hv1 Hlt) as Hr1.
  apply run_to_bind, run_to_on_exn. eapply run_to_bind_ok; [by apply get_vec_eq|].
  rewrite (vrep_siz _ _ _ Hr1).
  assert (Hcount : countable l (length vs)).
  { unfold countable. pose proof (len_bound _ _ _ _ Hw Hl). pose proof (len_bound _ _ _ _ Hw1 Hlt).
    pose proof (max_cap_bound Hcfg). lia. }
  assert (Hins : run_to (insert_impl x off (length vs) (λ p, uninit_move_from (v_ptr v1, 0) p (length vs))) w1
    (λ r w', r = off ∧ ∃ lt, wf w' (<[x:=insert_at off vs l]> (<[t:=lt]> (<[t:=vs]> m))) ∧ later w1 w' ∧
             placed x v (length l) (length vs) w1 w')
    (λ e w', kept w1 w' ∧ why (grown (length l) (length vs)) e w1 w')).
  { destruct (decide (vs = [])) as [->|Hne].
    - eapply run_to_mono; [apply (insert_copy_run Hcfg x off _ [] w1 _ l v Hw1 Hlx Hvx Hoff)|..|done].
      + split; [|done]. intros w2 b P B _ Hb. cbn [length uninit_move_from]. apply run_to_ret.
        cbn [length replicate app fmap list_fmap] in *. rewrite hins_id by done. apply world_eq; try done. cbn. lia.
      + done.
      + intros r w' (-> & Hw' & ? & ?). split; [done|]. exists []. rewrite insert_insert. done.
    - eapply run_to_mono; [apply (insert_move_run Hcfg x off _ vs t w1 (<[t:=vs]> m) vs (moved <$> vs) v1 l v False Hw1 Hlt Hv1)|..|done].
      + destruct (v_ptr v1) as [b1|] eqn:Hb1.
        2:{ destruct (vrep_none _ _ _ Hr1 Hb1) as [_ ->]. done. }
        exists b1. sp; [done|by rewrite fmap_length|].
        intros w2 b P B Hne' He Hb.
        destruct (decide (b1 = b)) as [e|n]; [by destruct (He e)|].
        pose proof (uninit_move_from_eq vs w2 b1 b [] (replicate (v_cap v1 - length vs) None) P B 0 (length P) n) as Heq.
        rewrite Heq; [|done|done|by apply Hne'|done].
        cbn [app]. unfold cells. by rewrite fmap_length.
      + done.
      + done.
      + rewrite insert_insert. by rewrite lookup_insert_ne.
      + done.
      + done.
      + done.
      + intros r w' (-> & Hw' & ? & ?). split; [done|]. exists (moved <$> vs). done. }
  eapply run_to_mono; [exact Hins|..].
  - intros r w2 (-> & lt & Hw2 & Hlt2 & Hpl). rewrite insert_insert in Hw2.
    destruct (placed_objs _ _ _ _ _ _ Hpl) as [v2 Hv2].
    apply run_to_bind.
    eapply run_to_mono; [apply (destroy_run t w2 _ lt v1 never Hw2)|..|done].
    { rewrite lookup_insert_ne by done. by rewrite lookup_insert. }
    { by rewrite Hv2, lookup_insert_ne. }
    intros _ w3 (Hw3 & Hlt3 & _). apply run_to_ret. sp; [done| |].
    + rewrite delete_insert_ne, delete_insert in Hw3 by done. exact Hw3.
    + eapply later_trans; [exact Hlt1|]. by eapply later_trans.
  - intros e w2 (Hk & Hwhy).
    eapply run_to_mono; [apply (destroy_run t w2 _ vs v1 never (kept_wf _ _ _ Hw1 Hk))|..|done].
    { done. }
    { destruct Hk as (-> & _). done. }
    intros _ w3 (Hw3 & Hlt3 & Ho3 & _). rewrite delete_insert in Hw3 by done. sp.
    + done.
    + rewrite Ho3. destruct Hk as (-> & _). rewrite Ho1, delete_insert; [done|].
      eapply inv_none; [apply (proj1 Hw)|done].
    + eapply later_trans; [exact Hlt1|]. eapply later_trans; [apply Hk|done].
    + eapply why_mono; [exact Hwhy|done|done|lia].
Qed.

(** ** Copying *)
Lemma srange_all m y l : m !! y = Some l → srange m (RElems y 0 (length l)) = Some l.
Proof.
  intros Hy. cbn [srange]. rewrite Hy. rewrite decide_True by lia. cbn [drop]. by rewrite firstn_all.
Qed.
Lemma copy_assign_run x y w m l k a :
  wf w m → m !! x = Some l → m !! y = Some k → objs w !! x = Some a →
  run_to (vec_copy_assign x y) w
    (λ _ w', wf w' (<[x:=k]> m) ∧ later w w' ∧ ((x = y ∧ w' = w) ∨ (x ≠ y ∧ replaced x a (length l) (length k) w w')))
    (λ e w', kept w w' ∧ why (length k) e w w').
Proof.
  intros Hw Hl Hk Hx. unfold vec_copy_assign. destruct (decide (x = y)) as [<-|Hne].
  { eapply run_to_bind_ok; [by apply get_vec_eq|]. apply run_to_ret.
    sp; [|apply later_refl|by left]. rewrite insert_id; done. }
  destruct (wf_get _ _ _ _ Hw Hk) as (b & Hb & Hr).
  eapply run_to_bind_ok; [by apply get_vec_eq|]. rewrite (vrep_siz _ _ _ Hr).
  eapply run_to_mono; [apply (assign_range_run Hcfg x _ k w m l a Hw Hl Hx); by apply srange_all|..|done].
  intros _ w' (? & ? & ?). sp; [done|done|by right].
Qed.

(** ** Element access *)
Lemma index_eq w m x l i a : wf w m → m !! x = Some l → l !! i = Some a → vec_index x i w = Ok a w.
Proof.
  intros Hw Hl Hi. destruct (wf_get _ _ _ _ Hw Hl) as (v & Hv & Hr).
  unfold vec_index. erewrite bind_ok by by apply get_vec_eq.
  destruct (v_ptr v) as [b|] eqn:Hb.
  - eapply rd_eq; [by eapply vrep_block|]. rewrite cells_lookup by by eapply lookup_lt_Some. by rewrite Hi.
  - destruct (vrep_none _ _ _ Hr Hb) as [_ ->]. done.
Qed.
Lemma set_run w m x l i a E : wf w m → m !! x = Some l → i < length l →
  run_to (vec_set x i a) w (λ _ w', wf w' (<[x:=<[i:=a]> l]> m) ∧ later w w' ∧ objs w' = objs w) E.
Proof.
  intros Hw Hl Hi. destruct (wf_get _ _ _ _ Hw Hl) as (v & Hv & Hr).
  unfold vec_set. eapply run_to_bind_ok; [by apply get_vec_eq|].
  destruct (lookup_lt_is_Some_2 _ _ Hi) as [a0 Ha0].
  destruct (v_ptr v) as [b|] eqn:Hb.
  - pose proof (vrep_block _ _ _ _ Hr Hb) as Hh.
    eapply run_to_eq.
    { eapply store_eq; [exact Hh|]. rewrite cells_lookup by done. by rewrite Ha0. }
    rewrite cells_insert by done. sp; [|unfold later; cbn; lia|done].
    split; cbn [objs heap nextb hins with_heap].
    + eapply inv_poke; [apply (proj1 Hw)|done|done|done|by rewrite insert_length].
    + intros k c. destruct (decide (k = b)) as [->|]; [intros _; by eapply (proj2 Hw)|].
      rewrite lookup_insert_ne by done. apply (proj2 Hw).
  - destruct (vrep_none _ _ _ Hr Hb) as [_ ->]. done.
Qed.
End proofs.
