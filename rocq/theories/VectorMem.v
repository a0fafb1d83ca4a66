(** Exact behaviour of the memory primitives and algorithms of VectorModel.v. *)
From stdpp Require Import prelude gmap.
From Coq Require Import ZArith Lia.
From Verif Require Import Cpp VectorModel VectorSpec.
Local Open Scope nat_scope.

Lemma bind_ok {S A B} (m : M S A) (k : A → M S B) s a s' :
  m s = Ok a s' → bind m k s = k a s'.
Proof. unfold bind. by intros ->. Qed.
Lemma run_to_eq {S A} (m : M S A) s a s' (Q : A → S → Prop) E :
  m s = Ok a s' → Q a s' → run_to m s Q E.
Proof. unfold run_to. by intros ->. Qed.
Lemma run_to_bind_ok {S A B} (m : M S A) (k : A → M S B) s a s' Q E :
  m s = Ok a s' → run_to (k a) s' Q E → run_to (bind m k) s Q E.
Proof. unfold run_to, bind. by intros ->. Qed.

Section proofs.
Context `{C : VecCfg}.
Notation block := (list (option V)).
Notation state := (gmap nat (list V)).

(** ** Worlds *)
Definition hins (b : nat) (c : block) (w : world) : world := with_heap (<[b:=c]> (heap w)) w.
Definition with_nctor (k : nat) (w : world) : world :=
  World (objs w) (heap w) (nextb w) k (nalloc w) (nreloc w).

Lemma world_eq (w w' : world) :
  objs w = objs w' → heap w = heap w' → nextb w = nextb w' → nctor w = nctor w' →
  nalloc w = nalloc w' → nreloc w = nreloc w' → w = w'.
Proof. destruct w as [o1 h1 b1 c1 a1 r1], w' as [o2 h2 b2 c2 a2 r2]; cbn [objs heap nextb nctor nalloc nreloc]. naive_solver. Qed.
Lemma with_heap_id h w : heap w = h → with_heap h w = w.
Proof. intros <-. by destruct w. Qed.
Lemma hins_id b c w : heap w !! b = Some c → hins b c w = w.
Proof. intros H. apply with_heap_id. by rewrite insert_id. Qed.
Lemma hins_hins b c c' w : hins b c (hins b c' w) = hins b c w.
Proof. unfold hins, with_heap. cbn [objs heap nextb nctor nalloc nreloc]. by rewrite insert_insert. Qed.
Lemma heap_hins b c w : heap (hins b c w) = <[b:=c]> (heap w).
Proof. done. Qed.

(** ** Slots *)
Lemma get_block_eq w b i c : heap w !! b = Some c → get_block (Some b, i) w = Ok (b, c) w.
Proof. unfold get_block. cbn [fst]. by intros ->. Qed.
Lemma rd_eq w b i c v : heap w !! b = Some c → c !! i = Some (Some v) → rd (Some b, i) w = Ok v w.
Proof.
  intros Hb Hi. unfold rd. erewrite bind_ok by by apply get_block_eq. cbn [fst snd]. by rewrite Hi.
Qed.
Lemma construct_eq w b i c v : heap w !! b = Some c → c !! i = Some None →
  construct (Some b, i) v w = Ok tt (hins b (<[i:=Some v]> c) w).
Proof.
  intros Hb Hi. unfold construct. erewrite bind_ok by by apply get_block_eq. cbn [fst snd]. by rewrite Hi.
Qed.
Lemma destroy_eq w b i c v : heap w !! b = Some c → c !! i = Some (Some v) →
  destroy (Some b, i) w = Ok tt (hins b (<[i:=None]> c) w).
Proof.
  intros Hb Hi. unfold destroy. erewrite bind_ok by by apply get_block_eq. cbn [fst snd]. by rewrite Hi.
Qed.
Lemma store_eq w b i c v u : heap w !! b = Some c → c !! i = Some (Some v) →
  store (Some b, i) u w = Ok tt (hins b (<[i:=Some u]> c) w).
Proof.
  intros Hb Hi. unfold store. erewrite bind_ok by by apply get_block_eq. cbn [fst snd]. by rewrite Hi.
Qed.

Lemma lookup_mid {A} (l1 l2 : list A) x i : i = length l1 → (l1 ++ x :: l2) !! i = Some x.
Proof. intros ->. by apply list_lookup_middle. Qed.
Lemma insert_mid {A} (l1 l2 : list A) x y i : i = length l1 → <[i:=y]> (l1 ++ x :: l2) = l1 ++ y :: l2.
Proof. intros ->. rewrite insert_app_r_alt by lia. by rewrite Nat.sub_diag. Qed.
Lemma app_cons_assoc {A} (l1 l2 : list A) x : l1 ++ x :: l2 = (l1 ++ [x]) ++ l2.
Proof. by rewrite <-app_assoc. Qed.

(** ** Algorithms *)
Lemma destroy_n_eq vs : ∀ w b A B i, i = length A →
  heap w !! b = Some (A ++ (Some <$> vs) ++ B) →
  destroy_n (Some b, i) (length vs) w = Ok tt (hins b (A ++ replicate (length vs) None ++ B) w).
Proof.
  induction vs as [|v vs IH]; intros w b A B i -> Hb; cbn [length destroy_n].
  { cbn [replicate app]. unfold ret. by rewrite hins_id. }
  erewrite bind_ok; [|eapply destroy_eq; [exact Hb|]; by apply lookup_mid].
  cbn [fmap list_fmap app]. rewrite insert_mid by done.
  unfold padd. cbn [fst snd].
  erewrite (IH _ b (A ++ [None]) B).
  - rewrite hins_hins. do 2 f_equal. by rewrite <-app_assoc.
  - rewrite app_length. cbn [length]. lia.
  - rewrite heap_hins, lookup_insert. by rewrite <-app_assoc.
Qed.

Lemma forallb_replicate {A} (f : A → bool) n a : f a = true → forallb f (replicate n a) = true.
Proof. intros H. induction n; cbn [replicate forallb]; [done|]. by rewrite H, IHn. Qed.
Lemma forallb_some (vs : list V) :
  forallb (λ s : option V, match s with None => false | Some _ => true end) (Some <$> vs) = true.
Proof. induction vs; [done|]. cbn [fmap list_fmap forallb]. done. Qed.

Lemma free_eq w b n : heap w !! b = Some (replicate n None) →
  free (running b) (Some b) w = Ok tt (with_heap (delete b (heap w)) w).
Proof. intros Hb. unfold free. rewrite Hb, Nat.eqb_refl. cbn [negb]. by rewrite forallb_replicate. Qed.

Lemma uninit_move_n_eq vs : ∀ w b1 b2 A B D E i j, b1 ≠ b2 → i = length A → j = length D →
  heap w !! b1 = Some (A ++ (Some <$> vs) ++ B) →
  heap w !! b2 = Some (D ++ replicate (length vs) None ++ E) →
  uninit_move_n (Some b1, i) (length vs) (Some b2, j) w =
    Ok tt (World (objs w)
             (<[b2:=D ++ (Some <$> vs) ++ E]> (<[b1:=A ++ (Some <$> (moved <$> vs)) ++ B]> (heap w)))
             (nextb w) (nctor w) (nalloc w) (nreloc w + length vs)).
Proof.
  induction vs as [|v vs IH]; intros w b1 b2 A B D E i j Hne -> -> H1 H2; cbn [length uninit_move_n].
  { unfold ret. f_equal. cbn [fmap list_fmap app replicate] in *.
    apply world_eq; try done; cbn [heap nreloc]; [|lia].
    rewrite (insert_id _ b1) by done. by rewrite insert_id. }
  erewrite bind_ok; [|eapply rd_eq; [exact H1|]; by apply lookup_mid].
  cbn [length replicate app] in H2.
  erewrite bind_ok; [|eapply construct_eq; [exact H2|]; by apply lookup_mid].
  erewrite bind_ok; [|eapply store_eq; [rewrite heap_hins, lookup_insert_ne by done; exact H1|by apply lookup_mid]].
  unfold relocated at 1.
  erewrite bind_ok by done.
  unfold padd. cbn [fst snd].
  erewrite (IH _ b1 b2 (A ++ [Some (moved v)]) B (D ++ [Some v]) E); [| done | | | |].
  - f_equal. apply world_eq; cbn [objs heap nextb nctor nalloc nreloc hins with_heap]; try done; [|lia].
    cbn [fmap list_fmap app]. rewrite <-!app_assoc. cbn [app].
    apply map_eq. intros k.
    destruct (decide (k = b2)) as [->|]; [by rewrite !lookup_insert|].
    destruct (decide (k = b1)) as [->|]; by simplify_map_eq.
  - rewrite app_length. cbn [length]. lia.
  - rewrite app_length. cbn [length]. lia.
  - cbn [heap hins with_heap]. cbn [fmap list_fmap app]. rewrite insert_mid by done.
    rewrite lookup_insert. rewrite <-app_assoc. done.
  - cbn [heap hins with_heap]. rewrite insert_mid by done. simplify_map_eq. by rewrite <-app_assoc.
Qed.

Lemma uninit_move_from_eq vs : ∀ w b1 b2 A B D E i j, b1 ≠ b2 → i = length A → j = length D →
  heap w !! b1 = Some (A ++ (Some <$> vs) ++ B) →
  heap w !! b2 = Some (D ++ replicate (length vs) None ++ E) →
  uninit_move_from (Some b1, i) (Some b2, j) (length vs) w =
    Ok tt (with_heap (<[b2:=D ++ (Some <$> vs) ++ E]> (<[b1:=A ++ (Some <$> (moved <$> vs)) ++ B]> (heap w))) w).
Proof.
  induction vs as [|v vs IH]; intros w b1 b2 A B D E i j Hne -> -> H1 H2; cbn [length uninit_move_from].
  { unfold ret. f_equal. cbn [fmap list_fmap app replicate] in *.
    symmetry. apply with_heap_id.
    rewrite (insert_id _ b1) by done. by rewrite insert_id. }
  erewrite bind_ok; [|eapply rd_eq; [exact H1|]; by apply lookup_mid].
  cbn [length replicate app] in H2.
  erewrite bind_ok; [|eapply construct_eq; [exact H2|]; by apply lookup_mid].
  erewrite bind_ok; [|eapply store_eq; [rewrite heap_hins, lookup_insert_ne by done; exact H1|by apply lookup_mid]].
  unfold padd. cbn [fst snd].
  erewrite (IH _ b1 b2 (A ++ [Some (moved v)]) B (D ++ [Some v]) E); [| done | | | |].
  - f_equal. apply world_eq; cbn [objs heap nextb nctor nalloc nreloc hins with_heap]; try done.
    cbn [fmap list_fmap app]. rewrite <-!app_assoc. cbn [app].
    apply map_eq. intros k.
    destruct (decide (k = b2)) as [->|]; [by rewrite !lookup_insert|].
    destruct (decide (k = b1)) as [->|]; by simplify_map_eq.
  - rewrite app_length. cbn [length]. lia.
  - rewrite app_length. cbn [length]. lia.
  - cbn [heap hins with_heap]. cbn [fmap list_fmap app]. rewrite insert_mid by done.
    rewrite lookup_insert. rewrite <-app_assoc. done.
  - cbn [heap hins with_heap]. rewrite insert_mid by done. simplify_map_eq. by rewrite <-app_assoc.
Qed.

(** Shifting the tail [ys] down over [xs]: what was erased is overwritten, [length xs] stale elements remain. *)
Lemma move_range_eq ys : ∀ w b A xs B i j, xs ≠ [] → i = length A → j = length A + length xs →
  heap w !! b = Some (A ++ (Some <$> xs) ++ (Some <$> ys) ++ B) →
  ∃ junk, length junk = length xs ∧
  move_range (Some b, j) (length ys) (Some b, i) w =
    Ok tt (hins b (A ++ (Some <$> ys) ++ (Some <$> junk) ++ B) w).
Proof.
  induction ys as [|y ys IH]; intros w b A xs B i j Hne -> -> Hb; cbn [length move_range].
  { exists xs. split; [done|]. unfold ret. by rewrite hins_id. }
  destruct xs as [|x xs]; [done|]. cbn [fmap list_fmap app] in Hb.
  edestruct (IH (hins b (A ++ Some y :: (Some <$> xs) ++ Some (moved y) :: (Some <$> ys) ++ B) w)
                b (A ++ [Some y]) (xs ++ [moved y]) B) as (junk & Hlen & Heq).
  { destruct xs; done. }
  { reflexivity. }
  { reflexivity. }
  { rewrite heap_hins, lookup_insert. rewrite fmap_app. cbn [fmap list_fmap].
    rewrite <-!app_assoc. done. }
  rewrite hins_hins in Heq.
  exists junk. split.
  { rewrite Hlen, app_length. cbn [length]. lia. }
  erewrite bind_ok.
  2:{ unfold move_assign_elem.
      erewrite bind_ok.
      2:{ eapply rd_eq; [exact Hb|]. rewrite app_comm_cons, app_assoc. apply lookup_mid.
          rewrite app_length. cbn [length]. rewrite fmap_length. lia. }
      rewrite decide_False by (intros [=]; cbn [length] in *; lia).
      erewrite bind_ok.
      2:{ eapply store_eq; [exact Hb|]. by apply lookup_mid. }
      rewrite insert_mid by done.
      erewrite store_eq.
      2:{ rewrite heap_hins, lookup_insert. reflexivity. }
      2:{ rewrite app_comm_cons, app_assoc. apply lookup_mid.
          rewrite app_length. cbn [length]. rewrite fmap_length. lia. }
      rewrite hins_hins. rewrite app_comm_cons, app_assoc, insert_mid.
      2:{ rewrite app_length. cbn [length]. rewrite fmap_length. lia. }
      rewrite <-app_assoc. cbn [app]. reflexivity. }
  unfold padd. cbn [fst snd].
  replace (length A + length (x :: xs) + 1) with (length (A ++ [Some y]) + length (xs ++ [moved y]))
    by (rewrite !app_length; cbn [length]; lia).
  replace (length A + 1) with (length (A ++ [Some y])) by (rewrite app_length; cbn [length]; lia).
  rewrite Heq. do 2 f_equal. rewrite <-!app_assoc. done.
Qed.

Lemma self_move_range_eq ys : ∀ w b A B i, i = length A →
  heap w !! b = Some (A ++ (Some <$> ys) ++ B) →
  move_range (Some b, i) (length ys) (Some b, i) w =
    Ok tt (hins b (A ++ (Some <$> (selfmove <$> ys)) ++ B) w).
Proof.
  induction ys as [|y ys IH]; intros w b A B i -> Hb; cbn [length move_range].
  { unfold ret. by rewrite hins_id. }
  cbn [fmap list_fmap app] in *.
  erewrite bind_ok.
  2:{ unfold move_assign_elem.
      erewrite bind_ok; [|eapply rd_eq; [exact Hb|]; by apply lookup_mid].
      rewrite decide_True by done.
      eapply store_eq; [exact Hb|]. by apply lookup_mid. }
  rewrite insert_mid by done.
  unfold padd. cbn [fst snd].
  erewrite (IH _ b (A ++ [Some (selfmove y)]) B).
  - rewrite hins_hins. do 2 f_equal. by rewrite <-app_assoc.
  - rewrite app_length. cbn [length]. lia.
  - rewrite heap_hins, lookup_insert. by rewrite <-app_assoc.
Qed.

Lemma rotate_eq w b A xs ys B i j k :
  i = length A → j = length A + length xs → k = length A + length xs + length ys →
  heap w !! b = Some (A ++ (Some <$> (xs ++ ys)) ++ B) →
  rotate (Some b) i j k w = Ok tt (hins b (A ++ (Some <$> (ys ++ xs)) ++ B) w).
Proof.
  intros -> -> -> Hb. unfold rotate.
  destruct (Nat.eqb_spec (length A) (length A + length xs)) as [e1|n1].
  { destruct xs; cbn [length] in *; [|lia]. cbn [orb app] in *. unfold ret. rewrite app_nil_r. by rewrite hins_id. }
  destruct (Nat.eqb_spec (length A + length xs) (length A + length xs + length ys)) as [e2|n2].
  { destruct ys; cbn [length] in *; [|lia]. cbn [orb app] in *. unfold ret. rewrite app_nil_r in Hb. by rewrite hins_id. }
  cbn [orb].
  erewrite bind_ok by (apply get_block_eq; exact Hb). cbn [fst snd].
  rewrite (proj2 (Nat.leb_le _ _)) by lia. rewrite (proj2 (Nat.leb_le _ _)) by lia.
  rewrite (proj2 (Nat.leb_le _ _)) by (rewrite !app_length, fmap_length, app_length; lia).
  cbn [andb negb].
  assert (Htk : drop (length A) (A ++ (Some <$> xs ++ ys) ++ B) = (Some <$> xs) ++ (Some <$> ys) ++ B).
  { rewrite drop_app_le by lia. rewrite drop_all. cbn [app]. by rewrite fmap_app, <-app_assoc. }
  rewrite Htk.
  replace (length A + length xs + length ys - length A) with (length xs + length ys) by lia.
  replace (length A + length xs + length ys - (length A + length xs)) with (length ys) by lia.
  replace (length A + length xs - length A) with (length xs) by lia.
  assert (take (length xs + length ys) ((Some <$> xs) ++ (Some <$> ys) ++ B) = Some <$> (xs ++ ys)) as ->.
  { rewrite app_assoc, <-fmap_app.
    rewrite firstn_app, fmap_length, app_length, Nat.sub_diag. cbn [take].
    rewrite app_nil_r. apply firstn_all2. by rewrite fmap_length, app_length. }
  rewrite forallb_some. unfold put_block.
  do 2 f_equal.
  - unfold hins, with_heap. f_equal. f_equal. rewrite !fmap_app.
    rewrite (firstn_app _ A), Nat.sub_diag, firstn_all. cbn [take]. rewrite app_nil_r.
    f_equal. rewrite <-drop_drop, drop_app_le by lia. rewrite drop_all. cbn [app].
    rewrite <-!app_assoc. 
    rewrite (drop_app_alt (Some <$> xs)) by by rewrite fmap_length.
    rewrite (firstn_app _ (Some <$> ys)), fmap_length, Nat.sub_diag. cbn [take]. rewrite app_nil_r.
    rewrite (firstn_all2 (Some <$> ys)) by by rewrite fmap_length.
    f_equal.
    rewrite (firstn_app _ (Some <$> xs)), fmap_length, Nat.sub_diag. cbn [take]. rewrite app_nil_r.
    rewrite (firstn_all2 (Some <$> xs)) by by rewrite fmap_length.
    f_equal. rewrite !app_assoc. apply drop_app_alt.
    by rewrite !app_length, !fmap_length.
Qed.

(** ** Sources *)
(** the value designated by [s] in heap [h] is [v] *)
Definition src_val (h : gmap nat block) (s : src) (v : V) : Prop :=
  match s with
  | SVal u => u = v
  | SPtr (Some b, i) => ∃ c, h !! b = Some c ∧ c !! i = Some (Some v)
  | SPtr (None, _) => False
  end.
Lemma rd_src_eq w s v : src_val (heap w) s v → rd_src s w = Ok v w.
Proof.
  destruct s as [u|[[b|] i]]; cbn [src_val rd_src]; [by intros ->| |done].
  intros (c & Hb & Hi). by eapply rd_eq.
Qed.
(** constructing in a raw slot does not disturb it *)
Lemma src_val_construct h s v b c i u :
  src_val h s v → h !! b = Some c → c !! i = Some None → src_val (<[b:=<[i:=Some u]> c]> h) s v.
Proof.
  destruct s as [u'|[[b'|] i']]; cbn [src_val]; [done| |done].
  intros (c' & Hb' & Hi') Hb Hi.
  destruct (decide (b' = b)) as [->|Hne].
  - rewrite lookup_insert. eexists. split; [done|]. simplify_eq.
    rewrite list_lookup_insert_ne; [done|]. intros ->. congruence.
  - rewrite lookup_insert_ne by done. eauto.
Qed.
Lemma src_val_insert h s v b c : src_val h s v → h !! b = None → src_val (<[b:=c]> h) s v.
Proof.
  destruct s as [u'|[[b'|] i']]; cbn [src_val]; [done| |done].
  intros (c' & Hb' & Hi') Hb. exists c'. split; [|done]. rewrite lookup_insert_ne; congruence.
Qed.

Lemma uninit_loop_run from vs : ∀ w b P ds B off dn,
  off = length P → dn = length ds →
  heap w !! b = Some (P ++ (Some <$> ds) ++ replicate (length vs) None ++ B) →
  (∀ k v, vs !! k = Some v → src_val (heap w) (from (dn + k)) v) →
  run_to (uninit_loop from (Some b, off) dn (length vs)) w
    (λ _ w', w' = with_nctor (nctor w + length vs) (hins b (P ++ (Some <$> (ds ++ vs)) ++ B) w))
    (λ e w', e = ElementThrow ∧ ∃ k, nctor w ≤ k < nctor w + length vs ∧ ctor_fails k = true ∧
       w' = with_nctor (S k) (hins b (P ++ replicate (dn + length vs) None ++ B) w)).
Proof.
  induction vs as [|v vs IH]; intros w b P ds B off dn -> -> Hb Hsrc; cbn [length uninit_loop].
  { apply run_to_ret. cbn [replicate app] in *. rewrite app_nil_r. rewrite hins_id by done.
    apply world_eq; try done. cbn [nctor with_nctor]. lia. }
  apply run_to_bind, run_to_on_exn.
  eapply run_to_bind_ok.
  { apply rd_src_eq. rewrite <-(Nat.add_0_r (length ds)). apply (Hsrc 0 v). done. }
  cbn [length replicate app] in Hb.
  apply run_to_bind. unfold run_to at 1, ctor.
  destruct (ctor_fails (nctor w)) eqn:Hf.
  { eapply run_to_eq.
    { eapply (destroy_n_eq ds _ b P (None :: replicate (length vs) None ++ B)); [done|exact Hb]. }
    split; [done|]. exists (nctor w). split_and!; [lia|lia|done|].
    apply world_eq; try done. cbn [heap with_nctor hins with_heap]. f_equal. f_equal.
    rewrite replicate_add. cbn [replicate]. rewrite <-app_assoc. done. }
  eapply run_to_eq.
  { unfold padd. cbn [fst snd]. eapply construct_eq; [exact Hb|].
    rewrite app_assoc. apply lookup_mid. by rewrite app_length, fmap_length. }
  rewrite app_assoc, insert_mid by by rewrite app_length, fmap_length.
  eapply run_to_mono; [eapply (IH _ b P (ds ++ [v]) B)|..].
  - done.
  - rewrite app_length. cbn [length]. lia.
  - cbn [heap hins with_heap]. rewrite lookup_insert. rewrite fmap_app. rewrite <-!app_assoc. done.
  - intros k u Hk. cbn [heap hins with_heap].
    replace (S (length ds) + k) with (length ds + S k) by lia.
    specialize (Hsrc (S k) u Hk).
    eapply (src_val_construct _ _ _ b _ (length P + length ds) v) in Hsrc; [|exact Hb|].
    2:{ rewrite app_assoc. apply lookup_mid. by rewrite app_length, fmap_length. }
    rewrite app_assoc, insert_mid in Hsrc by by rewrite app_length, fmap_length. exact Hsrc.
  - intros _ w' ->. apply world_eq; try done; cbn [heap nctor with_nctor hins with_heap]; [|lia].
    rewrite insert_insert. f_equal. by rewrite <-(app_assoc ds [v]).
  - intros e w' (-> & k & Hk & Hkf & ->). split; [done|].
    exists k. cbn [nctor hins with_heap] in Hk. split_and!; [lia|lia|done|].
    apply world_eq; try done; cbn [heap nctor with_nctor hins with_heap].
    rewrite insert_insert. do 4 f_equal. lia.
Qed.

Lemma uninit_run from vs w b P B off :
  off = length P →
  heap w !! b = Some (P ++ replicate (length vs) None ++ B) →
  (∀ k v, vs !! k = Some v → src_val (heap w) (from k) v) →
  run_to (uninit from (Some b, off) (length vs)) w
    (λ _ w', w' = with_nctor (nctor w + length vs) (hins b (P ++ (Some <$> vs) ++ B) w))
    (λ e w', e = ElementThrow ∧ ∃ k, nctor w ≤ k < nctor w + length vs ∧ ctor_fails k = true ∧
       w' = with_nctor (S k) w).
Proof.
  intros Hoff Hb Hsrc. unfold uninit.
  eapply run_to_mono; [eapply (uninit_loop_run from vs w b P [] B off 0)|..]; try done.
  intros e w' (-> & k & Hk & Hkf & ->). split; [done|]. exists k. split_and!; try done; try lia.
  by rewrite hins_id.
Qed.
End proofs.
