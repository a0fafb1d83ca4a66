(** Member functions of ptl::vector keep the representation invariant and act as
    the specification says. *)
From stdpp Require Import prelude gmap.
From Coq Require Import ZArith Lia.
From Verif Require Import Cpp VectorModel VectorSpec VectorMem VectorProofs.
Local Open Scope nat_scope.

Ltac sp := repeat match goal with |- _ ∧ _ => split end.

Section proofs.
Context `{C : VecCfg} (Hcfg : cfg_ok).
Notation block := (list (option V)).
Notation state := (gmap nat (list V)).
Notation heap_t := (gmap nat (list (option V))).
Implicit Types (Q : nat → world → Prop) (E : exn → world → Prop).

Lemma cells_snoc (l vs : list V) cap : length l + length vs ≤ cap →
  cells l cap = (Some <$> l) ++ replicate (length vs) None ++ replicate (cap - length l - length vs) None.
Proof. intros. unfold cells. rewrite <-replicate_add. do 2 f_equal. lia. Qed.
Lemma cells_app (l vs : list V) cap : length l + length vs ≤ cap →
  cells (l ++ vs) cap = (Some <$> l) ++ (Some <$> vs) ++ replicate (cap - length l - length vs) None.
Proof. intros. unfold cells. rewrite fmap_app, <-app_assoc, app_length. do 3 f_equal. lia. Qed.
Lemma insert_at_length i (vs l : list V) : length (insert_at i vs l) = length l + length vs.
Proof. unfold insert_at. rewrite !app_length, take_length, drop_length. lia. Qed.

(** ** insert_impl *)
Lemma insert_inplace_run x off n func w v b Q E :
  objs w !! x = Some v → v_ptr v = Some b → wadd (v_siz v) n ≤ v_cap v → off ≤ v_siz v →
  run_to (func (Some b, v_siz v)) w
    (λ _ w1, ∃ l vs r, length l = v_siz v ∧ length vs = n ∧ heap w1 !! b = Some ((Some <$> (l ++ vs)) ++ r) ∧
       Q off (with_objs (<[x:=set_size v (v_siz v + n)]> (objs w1)) (hins b ((Some <$> insert_at off vs l) ++ r) w1))) E →
  run_to (insert_impl x off n func) w Q E.
Proof.
  intros Hx Hb Hfit Hoff Hf. unfold insert_impl.
  eapply run_to_bind_ok; [by apply get_vec_eq|].
  rewrite (proj2 (Nat.leb_le _ _)) by done. rewrite Hb.
  apply run_to_bind, run_to_bind.
  eapply run_to_mono; [exact Hf| |done].
  intros _ w1 (l & vs & r & Hl & Hvs & Hh & HQ).
  eapply run_to_bind_ok.
  { apply (rotate_eq w1 b (Some <$> take off l) (drop off l) vs r).
    - rewrite fmap_length, take_length. lia.
    - rewrite fmap_length, take_length, drop_length. lia.
    - rewrite fmap_length, take_length, drop_length. lia.
    - rewrite Hh. rewrite app_assoc. rewrite <-fmap_app. f_equal. f_equal.
      by rewrite app_assoc, take_drop. }
  unfold put_vec. eapply run_to_eq; [done|]. apply run_to_ret.
  unfold insert_at in HQ. rewrite fmap_app, <-app_assoc in HQ. exact HQ.
Qed.

Lemma wadd_max a b : (Z.of_nat a + Z.of_nat (a `max` b) < 2 ^ Z.of_nat wbits)%Z →
  wadd a b = a + b ∧ wadd a (a `max` b) = grown a b.
Proof. intros. unfold grown. rewrite !wadd_small by lia. done. Qed.

Lemma insert_grow_run x off n func w v Q E :
  objs w !! x = Some v → other_block v (nextb w) → off ≤ v_siz v →
  (Z.of_nat (v_siz v) + Z.of_nat (v_siz v `max` n) < 2 ^ Z.of_nat wbits)%Z →
  v_cap v < v_siz v + n →
  (max_cap < grown (v_siz v) n → E LengthError w) →
  (alloc_fails (nalloc w) = true → E BadAlloc (alloc_failed w)) →
  (grown (v_siz v) n ≤ max_cap → alloc_fails (nalloc w) = false →
   let cap := min_cap `max` grown (v_siz v) n in
   run_to (func (Some (nextb w), off)) (allocated cap w)
    (λ _ w1, ∃ l vs, objs w1 !! x = Some v ∧ vrep (heap w1) v l ∧ length vs = n ∧
       heap w1 !! nextb w = Some (replicate off None ++ (Some <$> vs) ++ replicate (cap - off - n) None) ∧
       Q off (World (<[x:=Vec (Some (running (nextb w))) (Some (nextb w)) cap (v_siz v + n)]> (objs w1))
                    (<[nextb w:=cells (insert_at off vs l) cap]> (hdel (v_ptr v) (heap w1)))
                    (nextb w1) (nctor w1) (nalloc w1) (nreloc w1 + v_siz v)))
    (λ e w1, heap w1 !! nextb w = Some (replicate cap None) ∧
             E e (with_heap (delete (nextb w) (heap w1)) w1))) →
  run_to (insert_impl x off n func) w Q E.
Proof.
  intros Hx Hoth Hoff Hs Hfit HL HB HQ. unfold insert_impl.
  destruct (wadd_max _ _ Hs) as [Hw1 Hw2].
  eapply run_to_bind_ok; [by apply get_vec_eq|].
  rewrite Hw1, Hw2. rewrite (proj2 (Nat.leb_gt _ _)) by lia.
  apply run_to_bind, run_to_bind.
  apply storage_new_run; [unfold grown; lia|done|done|].
  intros Hle Hal. specialize (HQ Hle Hal). cbn [v_ptr].
  remember (min_cap `max` grown (v_siz v) n) as cap eqn:Hcap.
  assert (v_siz v + n ≤ cap) as Hroom by (unfold grown in *; lia).
  apply run_to_bind, run_to_on_exn.
  eapply run_to_mono; [exact HQ| |].
  2:{ intros e w1 [Hraw HE].
      assert (Hr : vrep (heap w1) (Vec (Some (running (nextb w))) (Some (nextb w)) cap 0) []).
      { unfold vrep. cbn [v_ptr v_dealloc v_siz v_cap length]. rewrite Hraw, cells_nil.
        pose proof Hcfg as (_ & _ & ?). sp; try done; lia. }
      eapply run_to_eq; [eapply storage_dtor_eq, Hr|]. exact HE. }
  intros _ w1 (l & vs & Hx1 & Hrep & Hvs & Hnb & HQ').
  pose proof (vrep_siz _ _ _ Hrep) as Hsiz.
  edestruct (reloc_eq w1 v l 0 off (nextb w) [] ((Some <$> vs) ++ replicate (cap - off - n) None) 0)
    as (l1 & Hl1 & Hsame1 & Heq1); [done|done|lia|done|exact Hnb|].
  eapply run_to_bind_ok; [exact Heq1|]. cbn [app drop].
  set (w2 := World _ _ _ _ _ _).
  assert (Hrep2 : vrep (heap w2) v l1).
  { destruct (v_ptr v) as [b|] eqn:Hb.
    - assert (b ≠ nextb w) by congruence.
      eapply vrep_ext; [apply (vrep_upd _ _ _ l1 b Hrep Hb Hl1)|].
      intros b' Hb'. rewrite Hb in Hb'. injection Hb' as <-. unfold w2. cbn [heap].
      by rewrite lookup_insert_ne.
    - destruct (vrep_none _ _ _ Hrep Hb) as [-> ->]. destruct l1; done. }
  assert (Hdr : drop off l1 = drop off l).
  { apply list_eq. intros k. rewrite !lookup_drop. apply Hsame1. lia. }
  edestruct (reloc_eq w2 v l1 off (v_siz v - off) (nextb w) ((Some <$> take off l) ++ (Some <$> vs))
               (replicate (cap - v_siz v - n) None) (off + n))
    as (l2 & Hl2 & _ & Heq2); [done|done|lia| | |].
  { rewrite app_length, !fmap_length, take_length. lia. }
  { unfold w2. cbn [heap]. rewrite lookup_insert. rewrite <-app_assoc. do 3 f_equal.
    rewrite <-replicate_add. f_equal. lia. }
  eapply run_to_bind_ok; [exact Heq2|].
  set (w3 := World _ _ _ _ _ _).
  assert (Hrep3 : vrep (heap w3) v l2).
  { destruct (v_ptr v) as [b|] eqn:Hb.
    - assert (b ≠ nextb w) by congruence.
      eapply vrep_ext; [apply (vrep_upd _ _ _ l2 b Hrep2 Hb)|].
      + lia.
      + intros b' Hb'. rewrite Hb in Hb'. injection Hb' as <-. unfold w3. cbn [heap].
        by rewrite lookup_insert_ne.
    - destruct (vrep_none _ _ _ Hrep Hb) as [-> ->]. cbn [length] in *.
      destruct l1; [|done]. destruct l2; done. }
  eapply run_to_eq.
  { eapply commit_eq; [|exact Hrep3]. exact Hx1. }
  apply run_to_ret.
  match goal with |- Q off ?w' => replace w' with
    (World (<[x:=Vec (Some (running (nextb w))) (Some (nextb w)) cap (v_siz v + n)]> (objs w1))
           (<[nextb w:=cells (insert_at off vs l) cap]> (hdel (v_ptr v) (heap w1)))
           (nextb w1) (nctor w1) (nalloc w1) (nreloc w1 + v_siz v)); [exact HQ'|] end.
  apply world_eq; try done; cbn [heap nreloc with_objs with_heap w3 w2 set_size v_dealloc v_ptr v_cap]; [|lia].
  rewrite Hdr.
  assert (Hcell : cells (insert_at off vs l) cap =
    ((Some <$> take off l) ++ (Some <$> vs)) ++ (Some <$> take (v_siz v - off) (drop off l)) ++
      replicate (cap - v_siz v - n) None).
  { unfold cells, insert_at. rewrite (firstn_all2 (drop off l)) by (rewrite drop_length; lia).
    rewrite !fmap_app, <-!app_assoc. do 4 f_equal.
    rewrite !app_length, take_length, drop_length. lia. }
  rewrite <-Hcell.
  destruct (v_ptr v) as [b|] eqn:Hb; cbn [hdel].
  - assert (b ≠ nextb w) by congruence.
    apply map_eq. intros k.
    destruct (decide (k = nextb w)) as [->|]; [by simplify_map_eq|].
    destruct (decide (k = b)) as [->|]; by simplify_map_eq.
  - by rewrite insert_insert.
Qed.

(** ** Contracts *)
Definition later (w w' : world) : Prop :=
  nextb w ≤ nextb w' ∧ nctor w ≤ nctor w' ∧ nalloc w ≤ nalloc w'.
Definition later_same (w w' : world) : Prop := later w w' ∧ nreloc w' = nreloc w.
(** nothing but the counters changed *)
Definition kept (w w' : world) : Prop := objs w' = objs w ∧ heap w' = heap w ∧ later_same w w'.
Definition why (limit : nat) (e : exn) (w w' : world) : Prop :=
  match e with
  | BadAlloc => ∃ k, nalloc w ≤ k < nalloc w' ∧ alloc_fails k = true
  | ElementThrow => ∃ k, nctor w ≤ k < nctor w' ∧ ctor_fails k = true
  | LengthError => max_cap < limit
  | _ => False
  end.
(** [func] constructs [vs] at the place it is given, reading sources whose values are fixed by [h] *)
Definition copyfunc (func : ptr → M world unit) (vs : list V) (h : heap_t) : Prop :=
  (∀ w1 b P B, (∀ s v, src_val h s v → src_val (heap w1) s v) →
     heap w1 !! b = Some (P ++ replicate (length vs) None ++ B) →
     run_to (func (Some b, length P)) w1
       (λ _ w', w' = with_nctor (nctor w1 + length vs) (hins b (P ++ (Some <$> vs) ++ B) w1))
       (λ e w', e = ElementThrow ∧ ∃ k, nctor w1 ≤ k < nctor w1 + length vs ∧ ctor_fails k = true ∧
          w' = with_nctor (S k) w1)) ∧
  (vs = [] → ∀ p w1, func p w1 = Ok tt w1).

Lemma later_refl w : later w w.
Proof. unfold later. lia. Qed.
Lemma later_same_refl w : later_same w w.
Proof. split; [apply later_refl|done]. Qed.
Lemma later_trans w1 w2 w3 : later w1 w2 → later w2 w3 → later w1 w3.
Proof. unfold later. lia. Qed.
Lemma kept_wf w w' m : wf w m → kept w w' → wf w' m.
Proof. intros [Hi Hf] (Ho & Hh & (Hl & _) & _). split; [by rewrite Ho, Hh|]. intros b c. rewrite Hh. intros H%Hf. lia. Qed.
Lemma wf_fresh w m : wf w m → heap w !! nextb w = None.
Proof. intros [_ Hf]. destruct (heap w !! nextb w) eqn:E; [|done]. apply Hf in E. lia. Qed.
Lemma wf_get w m x l : wf w m → m !! x = Some l → ∃ v, objs w !! x = Some v ∧ vrep (heap w) v l.
Proof. intros [Hi _]. by apply inv_get. Qed.
Lemma wf_rep w m x v l : wf w m → objs w !! x = Some v → m !! x = Some l → vrep (heap w) v l.
Proof. intros Hw Hx Hl. destruct (wf_get _ _ _ _ Hw Hl) as (? & ? & ?). by simplify_eq. Qed.
Lemma wf_other w m x v : wf w m → objs w !! x = Some v → other_block v (nextb w).
Proof.
  intros Hw Hx Hb. destruct Hw as [Hi Hf]. destruct (inv_some _ _ _ Hi _ _ Hx) as (l & _ & Hr).
  pose proof (vrep_block _ _ _ _ Hr Hb) as H. apply Hf in H. lia.
Qed.

(** what inserting [n] elements does to the buffer of [x] *)
Definition placed (x : nat) (v : vec) (len n : nat) (w w' : world) : Prop :=
  (len + n ≤ v_cap v ∧ objs w' = <[x:=set_size v (len + n)]> (objs w) ∧
     nalloc w' = nalloc w ∧ nreloc w' = nreloc w) ∨
  (v_cap v < len + n ∧
     objs w' = <[x:=Vec (Some (running (nextb w))) (Some (nextb w)) (min_cap `max` grown len n) (len + n)]> (objs w) ∧
     nalloc w' = S (nalloc w) ∧ nreloc w' = nreloc w + len).

Lemma len_bound w m x l : wf w m → m !! x = Some l → length l ≤ max_cap.
Proof.
  intros Hw Hl. destruct (wf_get _ _ _ _ Hw Hl) as (v & _ & Hr).
  pose proof (vrep_le _ _ _ Hr). pose proof (vrep_max _ _ _ Hr). lia.
Qed.

Lemma insert_copy_run x off func vs w m l v :
  wf w m → m !! x = Some l → objs w !! x = Some v → off ≤ length l →
  copyfunc func vs (heap w) → countable l (length vs) →
  run_to (insert_impl x off (length vs) func) w
    (λ r w', r = off ∧ wf w' (<[x:=insert_at off vs l]> m) ∧ later w w' ∧ placed x v (length l) (length vs) w w')
    (λ e w', kept w w' ∧ why (grown (length l) (length vs)) e w w').
Proof.
  intros Hw Hl Hx Hoff [Hf Hf0] Hcount.
  pose proof (wf_rep _ _ _ _ _ Hw Hx Hl) as Hrep.
  pose proof (vrep_siz _ _ _ Hrep) as Hsiz.
  pose proof (len_bound _ _ _ _ Hw Hl) as Hmax. pose proof (max_cap_bound Hcfg) as Hmb.
  unfold countable in Hcount.
  assert (Hs : (Z.of_nat (v_siz v) + Z.of_nat (v_siz v `max` length vs) < 2 ^ Z.of_nat wbits)%Z) by lia.
  destruct (wadd_max _ _ Hs) as [Hw1 _].
  pose proof (wf_fresh _ _ Hw) as Hfr.
  destruct (decide (v_siz v + length vs ≤ v_cap v)) as [Hfit|Hfit].
  - destruct (v_ptr v) as [b|] eqn:Hb.
    + pose proof (vrep_block _ _ _ _ Hrep Hb) as Hh.
      eapply insert_inplace_run; [exact Hx|exact Hb|by rewrite Hw1|lia|].
      rewrite (cells_snoc l vs) in Hh by lia.
      eapply run_to_mono; [rewrite Hsiz; rewrite <-(fmap_length Some l); eapply Hf; [done|exact Hh]|..].
      * intros _ w1 ->. exists l, vs, (replicate (v_cap v - length l - length vs) None).
        sp; [done|done| |done| | |].
        { cbn [heap with_nctor hins with_heap]. rewrite lookup_insert. by rewrite fmap_app, <-app_assoc. }
        { split.
          - cbn [objs heap with_objs with_nctor hins with_heap]. rewrite insert_insert.
            pose proof (inv_inplace _ _ _ x v l (insert_at off vs l) b (proj1 Hw) Hx Hl Hb) as Hi.
            rewrite insert_at_length in Hi. rewrite Hsiz.
            unfold cells in Hi. rewrite insert_at_length in Hi.
            rewrite <-Nat.sub_add_distr. apply Hi. lia.
          - cbn [heap nextb with_objs with_nctor hins with_heap]. intros b' c. rewrite insert_insert.
            destruct (decide (b' = b)) as [->|]; [rewrite lookup_insert|rewrite lookup_insert_ne by done; apply (proj2 Hw)].
            intros _. eapply (proj2 Hw), Hh. }
        { unfold later. cbn. lia. }
        { left. cbn [objs nalloc nreloc with_objs with_nctor hins with_heap]. rewrite Hsiz. sp; [lia|done..]. }
      * intros e w1 (-> & k & Hk & Hkf & ->). split.
        { unfold kept; sp; [done|done|]. unfold later_same, later. cbn. lia. }
        exists k. cbn [nctor with_nctor]. split; [lia|done].
    + destruct (vrep_none _ _ _ Hrep Hb) as [-> ->]. cbn [v_cap v_siz null_vec length] in *.
      assert (vs = []) as -> by (destruct vs; [done|cbn [length] in *; lia]).
      assert (off = 0) as -> by lia.
      unfold insert_impl. eapply run_to_bind_ok; [by apply get_vec_eq|].
      cbn [length v_siz null_vec v_cap v_ptr]. rewrite wadd_small by (cbn; lia).
      cbn [Nat.add Nat.leb]. apply run_to_bind. eapply run_to_bind_ok; [by apply Hf0|].
      eapply run_to_bind_ok; [done|]. unfold put_vec. eapply run_to_eq; [done|]. apply run_to_ret.
      sp; [done| |unfold later; cbn; lia|].
      * assert (with_objs (<[x:=set_size null_vec 0]> (objs w)) w = w) as ->.
        { apply world_eq; try done. cbn [objs with_objs]. by rewrite insert_id. }
        cbn [insert_at take drop app]. by rewrite insert_id.
      * left. cbn. sp; [lia|done..].
  - eapply insert_grow_run; [exact Hx|by eapply wf_other|lia|exact Hs|lia|..].
    + intros Hlim. rewrite Hsiz in Hlim. split; [|done]. unfold kept; sp; [done|done|apply later_same_refl].
    + intros Hal. split.
      * unfold kept; sp; [done|done|]. unfold later_same, later, alloc_failed. cbn. lia.
      * exists (nalloc w). cbn. split; [lia|done].
    + intros Hle Hal. cbn zeta. remember (min_cap `max` grown (v_siz v) (length vs)) as cap eqn:Hcap.
      assert (Hroom : v_siz v + length vs ≤ cap) by (unfold grown in *; lia).
      eapply run_to_mono.
      * rewrite <-(replicate_length off (@None V)) at 1.
        eapply (Hf _ _ _ (replicate (cap - off - length vs) None)).
        -- intros s u Hsrc. apply src_val_insert; done.
        -- unfold allocated. cbn [heap]. rewrite lookup_insert. f_equal.
           rewrite <-!replicate_add. f_equal. lia.
      * intros _ w1 ->. exists l, vs. cbn [objs heap with_nctor hins with_heap allocated].
        sp; [done| |done|by rewrite lookup_insert| | | |].
        { eapply vrep_ext; [exact Hrep|]. intros b Hb.
          pose proof (wf_other _ _ _ _ Hw Hx) as Ho. unfold other_block in Ho.
          rewrite !lookup_insert_ne by congruence. done. }
        { done. }
        { split; cbn [objs heap nextb].
          - pose proof (inv_realloc _ _ _ x v l (insert_at off vs l) (nextb w) cap (proj1 Hw) Hx Hl Hfr) as Hi.
            rewrite insert_at_length in Hi. rewrite Hsiz.
            assert (Hh : (<[nextb w:=cells (insert_at off vs l) cap]>
              (hdel (v_ptr v) (<[nextb w:=replicate off None ++ (Some <$> vs) ++ replicate (cap - off - length vs) None]>
                 (<[nextb w:=replicate cap None]> (heap w))))) =
              <[nextb w:=cells (insert_at off vs l) cap]> (hdel (v_ptr v) (heap w))).
            { rewrite insert_insert. destruct (v_ptr v) as [b|] eqn:Hb; cbn [hdel]; [|by rewrite insert_insert].
              apply map_eq. intros k. destruct (decide (k = nextb w)) as [->|]; [by rewrite !lookup_insert|].
              destruct (decide (k = b)) as [->|]; by simplify_map_eq. }
            rewrite Hh. apply Hi; [lia|]. pose proof Hcfg as (_ & _ & ?). lia.
          - intros b c. destruct (decide (b = nextb w)) as [->|]; [intros _; cbn [nextb with_nctor hins with_heap allocated]; lia|].
            rewrite lookup_insert_ne by done. cbn [nextb with_nctor hins with_heap allocated].
            destruct (v_ptr v) as [b'|] eqn:Hb; cbn [hdel].
            + intros [_ Hc]%lookup_delete_Some. rewrite !lookup_insert_ne in Hc by done.
              apply (proj2 Hw) in Hc. lia.
            + rewrite !lookup_insert_ne by done. intros Hc. apply (proj2 Hw) in Hc. lia. }
        { unfold later. cbn. lia. }
        { right. cbn [objs nalloc nreloc]. rewrite Hsiz in *. sp; [lia|by subst cap|done|done]. }
      * intros e w1 (-> & k & Hk & Hkf & ->). cbn [heap with_nctor allocated]. rewrite lookup_insert.
        split; [done|]. split.
        -- unfold kept; sp; [done| |].
           ++ cbn [heap with_heap with_nctor allocated]. by rewrite delete_insert.
           ++ unfold later_same, later. cbn. cbn in Hk. lia.
        -- exists k. cbn. cbn in Hk. split; [lia|done].
Qed.

Lemma cells_insert (l : list V) cap j a : j < length l → <[j:=Some a]> (cells l cap) = cells (<[j:=a]> l) cap.
Proof.
  intros Hj. unfold cells. rewrite insert_app_l by by rewrite fmap_length.
  by rewrite list_fmap_insert, insert_length.
Qed.
Lemma cells_lookup (l : list V) cap j : j < length l → cells l cap !! j = Some <$> l !! j.
Proof.
  intros Hj. unfold cells. rewrite lookup_app_l by by rewrite fmap_length. apply list_lookup_fmap.
Qed.

(** [func] constructs [vs] at the place it is given by moving out of the vector [u],
    whose elements change from [ly] to [ly']; the place may follow [u]'s own elements *)
Definition movefunc (func : ptr → M world unit) (vs : list V) (u : vec) (ly ly' : list V) (self : Prop) : Prop :=
  ∃ by', v_ptr u = Some by' ∧ length ly' = length ly ∧
  ∀ w1 b P B,
    (by' ≠ b → heap w1 !! by' = Some (cells ly (v_cap u))) →
    (by' = b → self ∧ P = Some <$> ly) →
    heap w1 !! b = Some (P ++ replicate (length vs) None ++ B) →
    func (Some b, length P) w1 =
      Ok tt (with_heap (if decide (by' = b) then <[b:=(Some <$> ly') ++ (Some <$> vs) ++ B]> (heap w1)
                        else <[b:=P ++ (Some <$> vs) ++ B]> (<[by':=cells ly' (v_cap u)]> (heap w1))) w1).

Lemma insert_move_run x off func vs y w m ly ly' u l v (self : Prop) :
  wf w m → m !! y = Some ly → objs w !! y = Some u → movefunc func vs u ly ly' self → (x = y → self) → vs ≠ [] →
  let m1 := <[y:=ly']> m in
  m1 !! x = Some l → objs w !! x = Some v → off ≤ length l → countable l (length vs) →
  run_to (insert_impl x off (length vs) func) w
    (λ r w', r = off ∧ wf w' (<[x:=insert_at off vs l]> m1) ∧ later w w' ∧ placed x v (length l) (length vs) w w')
    (λ e w', kept w w' ∧ why (grown (length l) (length vs)) e w w').
Proof.
  intros Hw Hly Hu (by' & Hby & Hlen & Hf) Hself Hvs0 m1 Hl Hx Hoff Hcount.
  pose proof (wf_rep _ _ _ _ _ Hw Hu Hly) as Hru.
  pose proof (vrep_block _ _ _ _ Hru Hby) as Hhy.
  set (w1 := hins by' (cells ly' (v_cap u)) w).
  assert (Hw1 : wf w1 m1).
  { split.
    - apply (inv_poke _ _ _ y u ly ly' by' (proj1 Hw)); done.
    - unfold w1. intros b c. cbn [heap nextb hins with_heap].
      destruct (decide (b = by')) as [->|]; [intros _; by eapply (proj2 Hw)|].
      rewrite lookup_insert_ne by done. apply (proj2 Hw). }
  pose proof (wf_rep w1 m1 _ _ _ Hw1 Hx Hl) as Hrep.
  pose proof (vrep_siz _ _ _ Hrep) as Hsiz.
  pose proof (len_bound _ _ _ _ Hw1 Hl) as Hmax. pose proof (max_cap_bound Hcfg) as Hmb.
  unfold countable in Hcount.
  assert (Hs : (Z.of_nat (v_siz v) + Z.of_nat (v_siz v `max` length vs) < 2 ^ Z.of_nat wbits)%Z) by lia.
  destruct (wadd_max _ _ Hs) as [Hw1' _].
  pose proof (wf_fresh _ _ Hw) as Hfr.
  assert (Hsame : ∀ b, v_ptr v = Some b → by' = b → x = y).
  { intros b Hb ->. eapply (inv_sep _ _ _ (proj1 Hw)); eauto. }
  assert (Hself' : x = y → v = u ∧ l = ly').
  { intros <-. split; [congruence|]. unfold m1 in Hl. rewrite lookup_insert in Hl. congruence. }
  destruct (decide (v_siz v + length vs ≤ v_cap v)) as [Hfit|Hfit].
  - destruct (v_ptr v) as [b|] eqn:Hb.
    + pose proof (vrep_block _ _ _ _ Hrep Hb) as Hh.
      eapply insert_inplace_run; [exact Hx|exact Hb|by rewrite Hw1'|lia|].
      set (r := replicate (v_cap v - length l - length vs) (@None V)).
      assert (∃ lo, length lo = length l ∧ heap w !! b = Some ((Some <$> lo) ++ replicate (length vs) None ++ r)
                    ∧ (by' ≠ b → lo = l) ∧ (by' = b → lo = ly)) as (lo & Hlo & Hho & Hne & Heq).
      { destruct (decide (by' = b)) as [e|n].
        - pose proof (Hsame _ eq_refl e) as e'. destruct (Hself' e') as [-> ->].
          exists ly. sp; [lia| |done|done]. subst b. rewrite Hhy. f_equal.
          rewrite (cells_snoc ly vs) by lia. unfold r. by rewrite Hlen.
        - exists l. sp; [lia| |done|done].
          unfold w1 in Hh. cbn [heap hins with_heap] in Hh. rewrite lookup_insert_ne in Hh by done.
          rewrite Hh. f_equal. rewrite (cells_snoc l vs) by lia. done. }
      eapply run_to_eq.
      { rewrite Hsiz, <-Hlo. rewrite <-(fmap_length Some lo). apply (Hf w b _ r); [done| |exact Hho].
        intros e. split; [apply Hself; by eapply Hsame|]. by rewrite (Heq e). }
      exists l, vs, r. sp; [done|done| |done| | |].
      * cbn [heap with_heap]. destruct (decide (by' = b)) as [e|n].
        -- rewrite lookup_insert. destruct (Hself' (Hsame _ eq_refl e)) as [_ ->].
           by rewrite fmap_app, <-app_assoc.
        -- rewrite lookup_insert. rewrite (Hne n). by rewrite fmap_app, <-app_assoc.
      * split.
        -- cbn [objs heap with_objs hins with_heap].
           pose proof (inv_inplace _ _ _ x v l (insert_at off vs l) b (proj1 Hw1) Hx Hl Hb) as Hi.
           rewrite insert_at_length in Hi. rewrite Hsiz.
           assert (Hcell : (Some <$> insert_at off vs l) ++ r = cells (insert_at off vs l) (v_cap v)).
           { unfold cells, r. rewrite insert_at_length. do 2 f_equal. lia. }
           rewrite Hcell.
           match goal with |- inv _ ?h _ => replace h with (<[b:=cells (insert_at off vs l) (v_cap v)]> (heap w1)) end.
           { apply Hi. lia. }
           unfold w1. cbn [heap hins with_heap]. apply map_eq. intros k.
           destruct (decide (k = b)) as [->|]; [by rewrite !lookup_insert|].
           rewrite !(lookup_insert_ne _ b) by done.
           destruct (decide (by' = b)) as [->|]; [by rewrite !lookup_insert_ne|].
           by rewrite (lookup_insert_ne _ b).
        -- cbn [heap nextb with_objs hins with_heap]. intros k c.
           destruct (decide (k = b)) as [->|]; [intros _; by eapply (proj2 Hw)|].
           rewrite lookup_insert_ne by done.
           destruct (decide (by' = b)) as [->|]; [rewrite lookup_insert_ne by done; apply (proj2 Hw)|].
           rewrite lookup_insert_ne by done.
           destruct (decide (k = by')) as [->|]; [intros _; by eapply (proj2 Hw)|].
           rewrite lookup_insert_ne by done. apply (proj2 Hw).
      * unfold later. cbn. lia.
      * left. cbn [objs nalloc nreloc with_objs hins with_heap]. rewrite Hsiz. sp; [lia|done..].
    + (* nothing fits into a null vector *)
      destruct (vrep_none _ _ _ Hrep Hb) as [-> ->]. cbn [v_cap v_siz null_vec length] in *.
      destruct vs; [done|cbn [length] in *; lia].
  - eapply insert_grow_run; [exact Hx|by eapply wf_other|lia|exact Hs|lia|..].
    + intros Hlim. rewrite Hsiz in Hlim. split; [|done]. unfold kept; sp; [done|done|apply later_same_refl].
    + intros Hal. split.
      * unfold kept; sp; [done|done|]. unfold later_same, later, alloc_failed. cbn. lia.
      * exists (nalloc w). cbn. split; [lia|done].
    + intros Hle Hal. cbn zeta. remember (min_cap `max` grown (v_siz v) (length vs)) as cap eqn:Hcap.
      assert (Hroom : v_siz v + length vs ≤ cap) by (unfold grown in *; lia).
      assert (Hbn : by' ≠ nextb w) by (intros ->; congruence).
      eapply run_to_eq.
      * rewrite <-(replicate_length off (@None V)) at 1.
        apply (Hf _ _ _ (replicate (cap - off - length vs) None)).
        -- intros _. unfold allocated. cbn [heap]. by rewrite lookup_insert_ne.
        -- done.
        -- unfold allocated. cbn [heap]. rewrite lookup_insert. f_equal.
           rewrite <-!replicate_add. f_equal. lia.
      * rewrite decide_False by done.
        exists l, vs. cbn [objs heap with_heap allocated nextb nctor nalloc nreloc].
        sp; [done| |done|by rewrite lookup_insert| | | |].
        { eapply vrep_ext; [exact Hrep|]. intros b Hb.
          pose proof (wf_other _ _ _ _ Hw Hx) as Ho. unfold other_block in Ho.
          rewrite lookup_insert_ne by congruence. unfold w1. cbn [heap hins with_heap].
          destruct (decide (b = by')) as [->|]; [by rewrite !lookup_insert|].
          rewrite !lookup_insert_ne by congruence. done. }
        { done. }
        { split; cbn [objs heap nextb].
          - pose proof (wf_fresh _ _ Hw1) as Hfr1.
            pose proof (inv_realloc _ _ _ x v l (insert_at off vs l) (nextb w) cap (proj1 Hw1) Hx Hl Hfr1) as Hi.
            rewrite insert_at_length in Hi. rewrite Hsiz.
            match goal with |- inv _ ?h _ =>
              replace h with (<[nextb w:=cells (insert_at off vs l) cap]> (hdel (v_ptr v) (heap w1))) end.
            { apply Hi; [lia|]. pose proof Hcfg as (_ & _ & ?). lia. }
            unfold w1. cbn [heap hins with_heap].
            destruct (v_ptr v) as [b|] eqn:Hb; cbn [hdel];
              (apply map_eq; intros k; destruct (decide (k = nextb w)) as [->|]; [by rewrite !lookup_insert|]).
            + destruct (decide (k = b)) as [->|]; [by simplify_map_eq|].
              destruct (decide (k = by')) as [->|]; by simplify_map_eq.
            + destruct (decide (k = by')) as [->|]; by simplify_map_eq.
          - intros k c. destruct (decide (k = nextb w)) as [->|]; [intros _; lia|].
            rewrite lookup_insert_ne by done.
            intros Hc.
            assert (Hc' : is_Some (heap w !! k)).
            { destruct (decide (k = by')) as [->|]; [eauto|].
              destruct (v_ptr v) as [b'|] eqn:Hb; cbn [hdel] in Hc.
              + apply lookup_delete_Some in Hc as [_ Hc]. rewrite !lookup_insert_ne in Hc by done. eauto.
              + rewrite !lookup_insert_ne in Hc by done. eauto. }
            destruct Hc' as [c' Hc']. apply (proj2 Hw) in Hc'. lia. }
        { unfold later. cbn. lia. }
        { right. cbn [objs nalloc nreloc]. rewrite Hsiz in *. sp; [lia|by subst cap|done|done]. }
Qed.

(** ** assign_impl *)
Definition replaced (x : nat) (v : vec) (len n : nat) (w w' : world) : Prop :=
  (len + n ≤ v_cap v ∧ objs w' = <[x:=set_size v n]> (objs w) ∧
     nalloc w' = nalloc w ∧ nreloc w' = nreloc w) ∨
  (v_cap v < len + n ∧
     objs w' = <[x:=Vec (Some (running (nextb w))) (Some (nextb w)) (min_cap `max` n) n]> (objs w) ∧
     nalloc w' = S (nalloc w) ∧ nreloc w' = nreloc w).

Lemma assign_copy_run x func vs w m l v :
  wf w m → m !! x = Some l → objs w !! x = Some v →
  copyfunc func vs (heap w) → countable l (length vs) →
  run_to (assign_impl x (length vs) func) w
    (λ _ w', wf w' (<[x:=vs]> m) ∧ later w w' ∧ replaced x v (length l) (length vs) w w')
    (λ e w', kept w w' ∧ why (length vs) e w w').
Proof.
  intros Hw Hl Hx [Hf Hf0] Hcount.
  pose proof (wf_rep _ _ _ _ _ Hw Hx Hl) as Hrep.
  pose proof (vrep_siz _ _ _ Hrep) as Hsiz. pose proof (vrep_le _ _ _ Hrep) as Hle0.
  unfold countable in Hcount.
  pose proof (wf_fresh _ _ Hw) as Hfr.
  unfold assign_impl. eapply run_to_bind_ok; [by apply get_vec_eq|].
  rewrite wadd_small by lia. rewrite Hsiz.
  destruct (Nat.leb_spec (length l + length vs) (v_cap v)) as [Hfit|Hfit].
  - destruct (v_ptr v) as [b|] eqn:Hb.
    + pose proof (vrep_block _ _ _ _ Hrep Hb) as Hh.
      rewrite (cells_snoc l vs) in Hh by lia.
      set (r := replicate (v_cap v - length l - length vs) (@None V)) in *.
      apply run_to_bind.
      eapply run_to_mono; [rewrite <-(fmap_length Some l); eapply Hf; [done|exact Hh]|..].
      * intros _ w1 ->. set (w1 := with_nctor _ _).
        eapply run_to_bind_ok.
        { apply (rotate_eq w1 b [] l vs r); [done|done|done|].
          unfold w1. cbn [heap with_nctor hins with_heap app]. rewrite lookup_insert.
          by rewrite fmap_app, <-app_assoc. }
        eapply run_to_bind_ok.
        { apply (destroy_n_eq l _ b (Some <$> vs) r); [by rewrite fmap_length|].
          cbn [heap hins with_heap app]. rewrite lookup_insert. by rewrite fmap_app, <-app_assoc. }
        rewrite hins_hins. unfold put_vec. eapply run_to_eq; [done|].
        assert (Hc : (Some <$> vs) ++ replicate (length l) None ++ r = cells vs (v_cap v)).
        { unfold cells, r. rewrite <-replicate_add. do 2 f_equal. lia. }
        rewrite Hc. sp.
        -- split.
           ++ unfold w1. cbn [objs heap with_objs with_nctor hins with_heap]. rewrite insert_insert.
              apply (inv_inplace _ _ _ x v l vs b (proj1 Hw) Hx Hl Hb). lia.
           ++ unfold w1. cbn [heap nextb with_objs with_nctor hins with_heap]. intros b' c. rewrite insert_insert.
              destruct (decide (b' = b)) as [->|]; [intros _; by eapply (proj2 Hw)|].
              rewrite lookup_insert_ne by done. apply (proj2 Hw).
        -- unfold later. cbn. lia.
        -- left. unfold w1. cbn [objs nalloc nreloc with_objs with_nctor hins with_heap]. sp; [lia|done..].
      * intros e w1 (-> & k & Hk & Hkf & ->). split.
        { unfold kept; sp; [done|done|]. unfold later_same, later. cbn. lia. }
        exists k. cbn [nctor with_nctor]. split; [lia|done].
    + destruct (vrep_none _ _ _ Hrep Hb) as [-> ->]. cbn [v_cap v_siz null_vec length] in *.
      assert (vs = []) as -> by (destruct vs; [done|cbn [length] in *; lia]).
      eapply run_to_bind_ok; [by apply Hf0|].
      eapply run_to_bind_ok; [done|]. eapply run_to_bind_ok; [done|].
      unfold put_vec. eapply run_to_eq; [done|].
      sp; [|unfold later; cbn; lia|].
      * assert (with_objs (<[x:=set_size null_vec (@length V [])]> (objs w)) w = w) as ->.
        { apply world_eq; try done. cbn [objs with_objs]. by rewrite insert_id. }
        by rewrite insert_id.
      * left. cbn. sp; [lia|done..].
  - apply run_to_bind. apply storage_new_run; [lia|..].
    + intros Hlim. split; [|done]. unfold kept; sp; [done|done|apply later_same_refl].
    + intros _ Hal. split.
      * unfold kept; sp; [done|done|]. unfold later_same, later, alloc_failed. cbn. lia.
      * exists (nalloc w). cbn. split; [lia|done].
    + intros Hle Hal. remember (min_cap `max` length vs) as cap eqn:Hcap. cbn [v_ptr].
      apply run_to_bind, run_to_on_exn.
      eapply run_to_mono.
      * apply (Hf (allocated cap w) (nextb w) [] (replicate (cap - length vs) None)).
        -- intros s u Hsrc. apply src_val_insert; done.
        -- unfold allocated. cbn [heap app]. rewrite lookup_insert. f_equal.
           rewrite <-!replicate_add. f_equal. lia.
      * intros _ w1 ->. eapply run_to_eq.
        { eapply (commit_eq _ _ _ v l); [exact Hx|]. cbn [heap with_nctor hins with_heap allocated].
          eapply vrep_ext; [exact Hrep|]. intros b Hb.
          pose proof (wf_other _ _ _ _ Hw Hx) as Ho. unfold other_block in Ho.
          rewrite !lookup_insert_ne by congruence. done. }
        cbn [set_size v_dealloc v_ptr v_cap]. sp.
        { split; cbn [objs heap nextb with_objs with_heap with_nctor hins allocated].
          - pose proof (inv_realloc _ _ _ x v l vs (nextb w) cap (proj1 Hw) Hx Hl Hfr) as Hi.
            match goal with |- inv _ ?h _ =>
              replace h with (<[nextb w:=cells vs cap]> (hdel (v_ptr v) (heap w))) end.
            { apply Hi; [lia|]. pose proof Hcfg as (_ & _ & ?). lia. }
            rewrite insert_insert. destruct (v_ptr v) as [b|] eqn:Hb; cbn [hdel app]; [|done].
            pose proof (wf_other _ _ _ _ Hw Hx) as Ho. unfold other_block in Ho. rewrite Hb in Ho.
            apply map_eq. intros k. destruct (decide (k = nextb w)) as [->|].
            { rewrite lookup_delete_ne by congruence. by rewrite !lookup_insert. }
            destruct (decide (k = b)) as [->|]; by simplify_map_eq.
          - intros b c. destruct (decide (b = nextb w)) as [->|]; [intros _; lia|].
            destruct (v_ptr v) as [b'|] eqn:Hb; cbn [hdel].
            + intros [_ Hc]%lookup_delete_Some. rewrite !lookup_insert_ne in Hc by done.
              apply (proj2 Hw) in Hc. lia.
            + rewrite !lookup_insert_ne by done. intros Hc. apply (proj2 Hw) in Hc. lia. }
        { unfold later. cbn. lia. }
        { right. cbn [objs nalloc nreloc]. sp; [lia|by subst cap|done|done]. }
      * intros e w1 (-> & k & Hk & Hkf & ->).
        assert (Hr : vrep (heap (with_nctor (S k) (allocated cap w))) (Vec (Some (running (nextb w))) (Some (nextb w)) cap 0) []).
        { unfold vrep. cbn [v_ptr v_dealloc v_siz v_cap length heap with_nctor allocated].
          rewrite lookup_insert, cells_nil. pose proof Hcfg as (_ & _ & ?). split_and!; try done; lia. }
        eapply run_to_eq; [eapply storage_dtor_eq, Hr|].
        cbn [hdel v_ptr]. split.
        -- unfold kept; sp; [done| |].
           ++ cbn [heap with_heap with_nctor allocated]. by rewrite delete_insert.
           ++ unfold later_same, later. cbn. cbn in Hk. lia.
        -- exists k. cbn. cbn in Hk. split; [lia|done].
Qed.
End proofs.
