(** The representation invariant of ptl::vector and its preservation by the
    building blocks of VectorModel.v. *)
From stdpp Require Import prelude gmap.
From Coq Require Import ZArith Lia.
From Verif Require Import Cpp VectorModel VectorSpec VectorMem.
Local Open Scope nat_scope.

Section proofs.
Context `{C : VecCfg}.
Notation block := (list (option V)).
Notation state := (gmap nat (list V)).
Notation heap_t := (gmap nat (list (option V))).

(** vector.hpp:33 and a size_t of at least one bit *)
Definition cfg_ok : Prop := 1 ≤ szT ∧ 1 ≤ wbits ∧ min_cap < max_cap.

Lemma wadd_small a b : (Z.of_nat a + Z.of_nat b < 2 ^ Z.of_nat wbits)%Z → wadd a b = a + b.
Proof. intros H. unfold wadd. rewrite Z.mod_small by lia. lia. Qed.

Lemma max_cap_bound : cfg_ok → (2 * Z.of_nat max_cap < 2 ^ Z.of_nat wbits)%Z.
Proof.
  intros (Hs & Hw & _). unfold max_cap.
  assert (2 ^ Z.of_nat wbits = 2 * 2 ^ (Z.of_nat wbits - 1))%Z as ->.
  { rewrite <-Z.pow_succ_r by lia. f_equal. lia. }
  assert (0 < 2 ^ (Z.of_nat wbits - 1))%Z by (apply Z.pow_pos_nonneg; lia).
  assert (((2 ^ (Z.of_nat wbits - 1) - 1) `div` Z.of_nat szT <= 2 ^ (Z.of_nat wbits - 1) - 1)%Z).
  { apply Z.div_le_upper_bound; [lia|]. nia. }
  assert (0 <= (2 ^ (Z.of_nat wbits - 1) - 1) `div` Z.of_nat szT)%Z by (apply Z.div_pos; lia).
  lia.
Qed.
Lemma max_cap_half : cfg_ok → (Z.of_nat max_cap < 2 ^ (Z.of_nat wbits - 1))%Z.
Proof.
  intros H. pose proof (max_cap_bound H) as Hb. destruct H as (Hs & Hw & _).
  assert (2 ^ Z.of_nat wbits = 2 * 2 ^ (Z.of_nat wbits - 1))%Z as E.
  { rewrite <-Z.pow_succ_r by lia. f_equal. lia. }
  lia.
Qed.

(** ** Representation *)
Definition cells (l : list V) (cap : nat) : block := (Some <$> l) ++ replicate (cap - length l) None.

Definition vrep (h : heap_t) (v : vec) (l : list V) : Prop :=
  match v_ptr v with
  | None => v = null_vec ∧ l = []
  | Some b =>
      v_dealloc v = Some (running b) ∧ h !! b = Some (cells l (v_cap v)) ∧
      v_siz v = length l ∧ length l ≤ v_cap v ∧ min_cap ≤ v_cap v ≤ max_cap
  end.

Record inv (o : gmap nat vec) (h : heap_t) (m : state) : Prop := Inv {
  inv_some : ∀ x v, o !! x = Some v → ∃ l, m !! x = Some l ∧ vrep h v l;
  inv_dom : ∀ x l, m !! x = Some l → ∃ v, o !! x = Some v;
  inv_sep : ∀ x y v u b, o !! x = Some v → o !! y = Some u → v_ptr v = Some b → v_ptr u = Some b → x = y;
  inv_own : ∀ b c, h !! b = Some c → ∃ x v, o !! x = Some v ∧ v_ptr v = Some b;
}.
Definition wf (w : world) (m : state) : Prop :=
  inv (objs w) (heap w) m ∧ ∀ b c, heap w !! b = Some c → b < nextb w.

Definition hdel (p : option nat) (h : heap_t) : heap_t :=
  match p with Some b => delete b h | None => h end.

Lemma inv_get o h m x l : inv o h m → m !! x = Some l → ∃ v, o !! x = Some v ∧ vrep h v l.
Proof.
  intros Hi Hx. destruct (inv_dom _ _ _ Hi _ _ Hx) as [v Hv].
  destruct (inv_some _ _ _ Hi _ _ Hv) as (l' & ? & ?). simplify_eq. eauto.
Qed.
Lemma inv_none o h m x : inv o h m → m !! x = None → o !! x = None.
Proof.
  intros Hi Hx. destruct (o !! x) eqn:E; [|done].
  destruct (inv_some _ _ _ Hi _ _ E) as (? & ? & _). congruence.
Qed.
Lemma vrep_null h : vrep h null_vec [].
Proof. done. Qed.
Lemma vrep_siz h v l : vrep h v l → v_siz v = length l.
Proof. unfold vrep. destruct (v_ptr v); [naive_solver|]. by intros [-> ->]. Qed.
Lemma vrep_le h v l : vrep h v l → length l ≤ v_cap v.
Proof. unfold vrep. destruct (v_ptr v); [naive_solver|]. by intros [-> ->]. Qed.
Lemma vrep_max h v l : vrep h v l → v_cap v ≤ max_cap.
Proof. unfold vrep. destruct (v_ptr v); [naive_solver lia|]. intros [-> ->]. cbn [v_cap null_vec]. lia. Qed.
Lemma vrep_block h v l b : vrep h v l → v_ptr v = Some b → h !! b = Some (cells l (v_cap v)).
Proof. unfold vrep. intros H Hb. rewrite Hb in H. naive_solver. Qed.
Lemma vrep_none h v l : vrep h v l → v_ptr v = None → v = null_vec ∧ l = [].
Proof. unfold vrep. intros H Hb. by rewrite Hb in H. Qed.
(** [vrep] depends on the vector's own block only *)
Lemma vrep_ext h h' v l : vrep h v l → (∀ b, v_ptr v = Some b → h' !! b = h !! b) → vrep h' v l.
Proof.
  unfold vrep. destruct (v_ptr v) eqn:E; [|done]. intros (? & ? & ?) Hh. rewrite Hh by done. done.
Qed.
(** overwriting elements keeps the shape *)
Lemma vrep_upd h v l l' b : vrep h v l → v_ptr v = Some b → length l' = length l →
  vrep (<[b:=cells l' (v_cap v)]> h) v l'.
Proof.
  unfold vrep. intros H Hb Hl. rewrite Hb in *. destruct H as (? & ? & ? & ? & ?).
  rewrite lookup_insert, Hl. done.
Qed.

(** ** Changing one object *)
Lemma inv_put o h m x v v' l' h' :
  inv o h m → o !! x = Some v →
  vrep h' v' l' →
  (∀ y u b, y ≠ x → o !! y = Some u → v_ptr u = Some b → h' !! b = h !! b ∧ v_ptr v' ≠ Some b) →
  (∀ b c, h' !! b = Some c → v_ptr v' = Some b ∨ (is_Some (h !! b) ∧ v_ptr v ≠ Some b)) →
  inv (<[x:=v']> o) h' (<[x:=l']> m).
Proof.
  intros Hi Hx Hrep Hoth Hown. split.
  - intros y u. destruct (decide (y = x)) as [->|Hne].
    + rewrite !lookup_insert. intros [= <-]. eauto.
    + rewrite !lookup_insert_ne by done. intros Hy.
      destruct (inv_some _ _ _ Hi _ _ Hy) as (l & Hl & Hu). exists l. split; [done|].
      eapply vrep_ext; [exact Hu|]. intros b Hb. by eapply Hoth.
  - intros y l. destruct (decide (y = x)) as [->|Hne].
    + rewrite !lookup_insert. eauto.
    + rewrite !lookup_insert_ne by done. apply (inv_dom _ _ _ Hi).
  - intros y z u u' b. destruct (decide (y = x)) as [->|Hy], (decide (z = x)) as [->|Hz]; try done.
    + rewrite lookup_insert, lookup_insert_ne by done. intros [= <-] Hz' Hb Hb'.
      destruct (Hoth _ _ _ Hz Hz' Hb') as [_ ?]. done.
    + rewrite lookup_insert, lookup_insert_ne by done. intros Hy' [= <-] Hb Hb'.
      destruct (Hoth _ _ _ Hy Hy' Hb) as [_ ?]. done.
    + rewrite !lookup_insert_ne by done. apply (inv_sep _ _ _ Hi).
  - intros b c Hb. destruct (Hown _ _ Hb) as [Hv|[[c' Hc] Hne]].
    + exists x, v'. by rewrite lookup_insert.
    + destruct (inv_own _ _ _ Hi _ _ Hc) as (y & u & Hy & Hu).
      exists y, u. split; [|done]. rewrite lookup_insert_ne; [done|]. intros ->. simplify_eq.
Qed.

Lemma inv_inplace o h m x v l l' b :
  inv o h m → o !! x = Some v → m !! x = Some l → v_ptr v = Some b → length l' ≤ v_cap v →
  inv (<[x:=set_size v (length l')]> o) (<[b:=cells l' (v_cap v)]> h) (<[x:=l']> m).
Proof.
  intros Hi Hx Hl Hb Hle.
  destruct (inv_some _ _ _ Hi _ _ Hx) as (l0 & ? & Hrep). simplify_eq.
  eapply inv_put; [exact Hi|exact Hx|..].
  - unfold vrep in *. rewrite Hb in Hrep. cbn [v_ptr set_size v_dealloc v_siz v_cap]. rewrite Hb.
    rewrite lookup_insert. naive_solver.
  - intros y u b' Hne Hy Hu. cbn [v_ptr set_size].
    assert (b' ≠ b) by (intros ->; apply Hne; by eapply (inv_sep _ _ _ Hi)).
    rewrite lookup_insert_ne by done. split; [done|congruence].
  - intros b' c. cbn [v_ptr set_size]. destruct (decide (b' = b)) as [->|Hne]; [by left|].
    rewrite lookup_insert_ne by done. intros ->. right. split; [eauto|congruence].
Qed.

Lemma inv_realloc o h m x v l l' nb cap :
  inv o h m → o !! x = Some v → m !! x = Some l → h !! nb = None →
  length l' ≤ cap → min_cap ≤ cap ≤ max_cap →
  inv (<[x:=Vec (Some (running nb)) (Some nb) cap (length l')]> o) (<[nb:=cells l' cap]> (hdel (v_ptr v) h)) (<[x:=l']> m).
Proof.
  intros Hi Hx Hl Hb Hle Hcap.
  destruct (inv_some _ _ _ Hi _ _ Hx) as (l0 & ? & Hrep). simplify_eq.
  eapply inv_put; [exact Hi|exact Hx|..].
  - unfold vrep. cbn [v_ptr v_dealloc v_siz v_cap]. rewrite lookup_insert. done.
  - intros y u b' Hne Hy Hu. cbn [v_ptr].
    destruct (inv_some _ _ _ Hi _ _ Hy) as (ly & ? & Hry).
    pose proof (vrep_block _ _ _ _ Hry Hu) as Hbb.
    assert (nb ≠ b') by congruence.
    rewrite lookup_insert_ne by done. split; [|congruence].
    destruct (v_ptr v) as [b|] eqn:Hv; cbn [hdel]; [|done].
    rewrite lookup_delete_ne; [done|]. intros ->. apply Hne. by eapply (inv_sep _ _ _ Hi).
  - intros b' c. cbn [v_ptr]. destruct (decide (b' = nb)) as [->|Hne]; [by left|].
    rewrite lookup_insert_ne by done. intros Hc. right.
    destruct (v_ptr v) as [b|] eqn:Hv; cbn [hdel] in Hc.
    + apply lookup_delete_Some in Hc as [? ?]. split; [eauto|congruence].
    + split; [eauto|done].
Qed.

Lemma inv_reset o h m x v l :
  inv o h m → o !! x = Some v → m !! x = Some l →
  inv (<[x:=null_vec]> o) (hdel (v_ptr v) h) (<[x:=[]]> m).
Proof.
  intros Hi Hx Hl.
  eapply inv_put; [exact Hi|exact Hx|done|..].
  - intros y u b' Hne Hy Hu. split; [|done].
    destruct (v_ptr v) as [b|] eqn:Hv; cbn [hdel]; [|done].
    rewrite lookup_delete_ne; [done|]. intros ->. apply Hne. by eapply (inv_sep _ _ _ Hi).
  - intros b' c Hc. right.
    destruct (v_ptr v) as [b|] eqn:Hv; cbn [hdel] in Hc.
    + apply lookup_delete_Some in Hc as [? ?]. split; [eauto|congruence].
    + split; [eauto|done].
Qed.

Lemma inv_new o h m x : inv o h m → m !! x = None → inv (<[x:=null_vec]> o) h (<[x:=[]]> m).
Proof.
  intros Hi Hx. pose proof (inv_none _ _ _ _ Hi Hx) as Ho. split.
  - intros y u. destruct (decide (y = x)) as [->|Hne].
    + rewrite !lookup_insert. intros [= <-]. eauto using vrep_null.
    + rewrite !lookup_insert_ne by done. apply (inv_some _ _ _ Hi).
  - intros y l. destruct (decide (y = x)) as [->|Hne].
    + rewrite !lookup_insert. eauto.
    + rewrite !lookup_insert_ne by done. apply (inv_dom _ _ _ Hi).
  - intros y z u u' b. destruct (decide (y = x)) as [->|Hy], (decide (z = x)) as [->|Hz]; try done;
      rewrite ?lookup_insert, ?lookup_insert_ne by done; try by intros; simplify_eq.
    apply (inv_sep _ _ _ Hi).
  - intros b c Hb. destruct (inv_own _ _ _ Hi _ _ Hb) as (y & u & Hy & Hu).
    exists y, u. split; [|done]. rewrite lookup_insert_ne; congruence.
Qed.

Lemma inv_drop o h m x v : inv o h m → o !! x = Some v →
  inv (delete x o) (hdel (v_ptr v) h) (delete x m).
Proof.
  intros Hi Hx. split.
  - intros y u. destruct (decide (y = x)) as [->|Hne]; [by rewrite lookup_delete|].
    rewrite !lookup_delete_ne by done. intros Hy.
    destruct (inv_some _ _ _ Hi _ _ Hy) as (l & Hl & Hr). exists l. split; [done|].
    eapply vrep_ext; [exact Hr|]. intros b Hb. destruct (v_ptr v) as [b'|] eqn:Hv; cbn [hdel]; [|done].
    rewrite lookup_delete_ne; [done|]. intros ->. apply Hne. by eapply (inv_sep _ _ _ Hi).
  - intros y l. destruct (decide (y = x)) as [->|Hne]; [by rewrite lookup_delete|].
    rewrite !lookup_delete_ne by done. apply (inv_dom _ _ _ Hi).
  - intros y z u u' b Hy Hz. apply lookup_delete_Some in Hy as [_ Hy]. apply lookup_delete_Some in Hz as [_ Hz].
    by apply (inv_sep _ _ _ Hi).
  - intros b c Hb.
    assert (h !! b = Some c ∧ v_ptr v ≠ Some b) as [Hh Hne].
    { destruct (v_ptr v) as [b'|] eqn:Hv; cbn [hdel] in Hb; [|done].
      apply lookup_delete_Some in Hb as [? ?]. split; [done|congruence]. }
    destruct (inv_own _ _ _ Hi _ _ Hh) as (y & u & Hy & Hu). exists y, u. split; [|done].
    rewrite lookup_delete_ne; [done|]. intros ->. congruence.
Qed.

(** overwriting the elements of [y] by others, e.g. moved-from ones *)
Lemma inv_poke o h m y u ly ly' b :
  inv o h m → o !! y = Some u → m !! y = Some ly → v_ptr u = Some b → length ly' = length ly →
  inv o (<[b:=cells ly' (v_cap u)]> h) (<[y:=ly']> m).
Proof.
  intros Hi Hy Hm Hb Hlen.
  destruct (inv_some _ _ _ Hi _ _ Hy) as (l0 & ? & Hrep). simplify_eq.
  pose proof (inv_inplace _ _ _ y u ly ly' b Hi Hy Hm Hb) as H.
  rewrite insert_id in H.
  - apply H. rewrite Hlen. by eapply vrep_le.
  - rewrite Hy. f_equal. destruct u as [d p c s]. unfold set_size. cbn [v_dealloc v_ptr v_cap v_siz].
    apply vrep_siz in Hrep. cbn [v_siz] in Hrep. congruence.
Qed.

(** ** Rules for the storage functions *)
Lemma vec_eta v : Vec (v_dealloc v) (v_ptr v) (v_cap v) (v_siz v) = v.
Proof. by destruct v. Qed.
Lemma get_vec_eq w x v : objs w !! x = Some v → get_vec x w = Ok v w.
Proof. unfold get_vec. by intros ->. Qed.

Lemma storage_dtor_eq w v l : vrep (heap w) v l →
  storage_dtor v w = Ok tt (with_heap (hdel (v_ptr v) (heap w)) w).
Proof.
  unfold vrep, storage_dtor. destruct (v_ptr v) as [b|] eqn:Hb.
  - intros (-> & Hh & -> & Hle & _).
    erewrite bind_ok.
    2:{ apply (destroy_n_eq l w b [] (replicate (v_cap v - length l) None)); [done|exact Hh]. }
    rewrite (free_eq _ _ (v_cap v)).
    + cbn [hdel]. f_equal. apply world_eq; try done.
      cbn [heap with_heap hins]. by rewrite delete_insert_delete.
    + cbn [heap with_heap hins app]. rewrite lookup_insert, <-replicate_add.
      do 2 f_equal. lia.
  - intros [-> ->]. cbn [v_dealloc null_vec hdel]. unfold ret. by rewrite with_heap_id.
Qed.

Lemma commit_eq w x tmp v l : objs w !! x = Some v → vrep (heap w) v l →
  commit x tmp w = Ok tt (with_objs (<[x:=tmp]> (objs w)) (with_heap (hdel (v_ptr v) (heap w)) w)).
Proof.
  intros Hx Hrep. unfold commit, storage_take.
  erewrite bind_ok; [|erewrite bind_ok by by apply get_vec_eq].
  2:{ erewrite bind_ok by (by eapply storage_dtor_eq). unfold put_vec. erewrite bind_ok by done. done. }
  rewrite vec_eta.
  unfold storage_dtor. cbn [v_dealloc null_vec]. done.
Qed.

Definition alloc_failed (w : world) : world :=
  World (objs w) (heap w) (nextb w) (nctor w) (S (nalloc w)) (nreloc w).
Definition allocated (cap : nat) (w : world) : world :=
  World (objs w) (<[nextb w:=replicate cap None]> (heap w)) (S (nextb w)) (nctor w) (S (nalloc w)) (nreloc w).

Lemma storage_new_run n w (Q : vec → world → Prop) (E : exn → world → Prop) :
  n ≠ 0 →
  (max_cap < n → E LengthError w) →
  (n ≤ max_cap → alloc_fails (nalloc w) = true → E BadAlloc (alloc_failed w)) →
  (n ≤ max_cap → alloc_fails (nalloc w) = false →
     Q (Vec (Some (running (nextb w))) (Some (nextb w)) (min_cap `max` n) 0) (allocated (min_cap `max` n) w)) →
  run_to (storage_new n) w Q E.
Proof.
  intros Hn H1 H2 H3. unfold storage_new.
  rewrite (proj2 (Nat.eqb_neq _ _)) by done.
  destruct (Nat.ltb_spec max_cap n) as [Hlt|Hle]; [by apply H1|].
  unfold run_to, bind, this_module, calloc. destruct (alloc_fails (nalloc w)) eqn:Hf; cbn; auto.
Qed.

(** the buffer [v] refers to is not the freshly allocated one *)
Definition other_block (v : vec) (b : nat) : Prop := v_ptr v ≠ Some b.

Lemma cells_nil cap : cells [] cap = replicate cap None.
Proof. unfold cells. cbn. by rewrite Nat.sub_0_r. Qed.
Lemma cells_length l cap : length l ≤ cap → length (cells l cap) = cap.
Proof. intros. unfold cells. rewrite app_length, fmap_length, replicate_length. lia. Qed.

(** relocation of all elements of [v] into a raw part of another block *)
Lemma reloc_eq w v l i n nb D E j :
  vrep (heap w) v l → other_block v nb → i + n ≤ length l → j = length D →
  heap w !! nb = Some (D ++ replicate n None ++ E) →
  ∃ l', length l' = length l ∧ (∀ k, k < i ∨ i + n ≤ k → l' !! k = l !! k) ∧
  uninit_move_n (v_ptr v, i) n (Some nb, j) w =
    Ok tt (World (objs w) (<[nb:=D ++ (Some <$> take n (drop i l)) ++ E]>
                            (match v_ptr v with Some b => <[b:=cells l' (v_cap v)]> (heap w) | None => heap w end))
             (nextb w) (nctor w) (nalloc w) (nreloc w + n)).
Proof.
  intros Hrep Hoth Hin -> Hnb.
  destruct (v_ptr v) as [b|] eqn:Hb.
  - pose proof (vrep_block _ _ _ _ Hrep Hb) as Hh.
    exists (take i l ++ (moved <$> take n (drop i l)) ++ drop (i + n) l). split_and!.
    + rewrite !app_length, fmap_length, !take_length, !drop_length. lia.
    + intros k [Hk|Hk].
      * rewrite lookup_app_l by (rewrite take_length; lia). rewrite lookup_take by lia. done.
      * rewrite lookup_app_r by (rewrite take_length; lia).
        rewrite lookup_app_r by (rewrite fmap_length, !take_length, drop_length; lia).
        rewrite lookup_drop. f_equal. rewrite fmap_length, !take_length, drop_length. lia.
    + assert (Hn : length (take n (drop i l)) = n) by (rewrite take_length, drop_length; lia).
      pose proof (uninit_move_n_eq (take n (drop i l)) w b nb (Some <$> take i l)
                    ((Some <$> drop (i + n) l) ++ replicate (v_cap v - length l) None) D E i (length D)) as Heq.
      rewrite Hn in Heq. rewrite Heq; clear Heq; [|..].
      * f_equal. apply world_eq; try done. cbn [heap]. f_equal. f_equal.
        unfold cells. rewrite !fmap_app, <-!app_assoc. do 4 f_equal.
        rewrite !app_length, fmap_length, !take_length, !drop_length. lia.
      * intros ->. done.
      * rewrite fmap_length, take_length. lia.
      * done.
      * rewrite Hh. unfold cells. f_equal. rewrite !app_assoc. f_equal. rewrite <-!fmap_app. f_equal.
        rewrite <-(take_drop i l) at 1. rewrite <-app_assoc. f_equal.
        rewrite <-(take_drop n (drop i l)) at 1. f_equal. by rewrite drop_drop.
      * done.
  - destruct (vrep_none _ _ _ Hrep Hb) as [-> ->]. cbn [length] in Hin.
    assert (i = 0 ∧ n = 0) as [-> ->] by lia.
    exists []. split_and!; [done|done|]. cbn [uninit_move_n]. unfold ret. f_equal.
    cbn [replicate app take drop fmap list_fmap] in *.
    apply world_eq; try done; cbn [heap nreloc]; [|lia]. by rewrite insert_id.
Qed.
End proofs.
