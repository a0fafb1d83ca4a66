(** The representation invariant of ptl::string's storage_t, and what storage_t's member
    functions (StringModel.v) do to it. *)
From stdpp Require Import prelude gmap.
From Coq Require Import ZArith Lia.
From Verif Require Import Cpp StringModel StringSpec StringMem.
Local Open Scope nat_scope.

Section proofs.
Context `{C : StrCfg}.
Notation bufid := (nat + nat)%type.
Notation buffer := (list (option char)).

(** pointers have an even size, the inline size fits a char (string.hpp:27, 92), and the
    smallest heap buffer can be allocated *)
Definition cfg_ok : Prop :=
  1 ≤ psz ∧ Nat.even psz = true ∧ sso_size ≤ 127 ∧ 1 ≤ wbits ∧ 2 * footprint + 1 ≤ ptrdiff_max.

Lemma wadd_small a b : (Z.of_nat a + Z.of_nat b < 2 ^ Z.of_nat wbits)%Z → wadd a b = a + b.
Proof. intros H. unfold wadd. rewrite Z.mod_small by lia. lia. Qed.
Lemma ptrdiff_half : 1 ≤ wbits → (2 * Z.of_nat ptrdiff_max + 2 = 2 ^ Z.of_nat wbits)%Z.
Proof.
  intros Hw. unfold ptrdiff_max.
  assert (2 ^ Z.of_nat wbits = 2 * 2 ^ (Z.of_nat wbits - 1))%Z as ->.
  { rewrite <-Z.pow_succ_r by lia. f_equal. lia. }
  assert (0 < 2 ^ (Z.of_nat wbits - 1))%Z by (apply Z.pow_pos_nonneg; lia). lia.
Qed.
Lemma ptrdiff_lt n : 1 ≤ wbits → (Z.of_nat n < 2 ^ (Z.of_nat wbits - 1))%Z → n ≤ ptrdiff_max.
Proof. intros Hw H. unfold ptrdiff_max. lia. Qed.

(** ** A storage_t: where its buffer is, its size member, and the contents of the buffer *)
Record raw := Raw { r_home : option nat; r_siz : nat; r_cells : buffer }.
Definition hp (x : nat) (r : raw) : bufid := match r_home r with None => inl x | Some b => inr b end.
Definition cap (r : raw) : nat := length (r_cells r) - 1.
Definition conc (r : raw) : str :=
  match r_home r with
  | None => Str None (USso (r_siz r))
  | Some b => Str (Some (running b)) (UHeap b (cap r) (r_siz r))
  end.
Definition shape (r : raw) : Prop :=
  match r_home r with
  | None => length (r_cells r) = sso_size + 1
  | Some _ => (∃ k, 2 ≤ k ∧ length (r_cells r) = k * footprint + 1) ∧ length (r_cells r) ≤ ptrdiff_max
  end.
Notation raws := (gmap nat raw).

Record Rep (w : world) (ρ : raws) : Prop := MkRep {
  rep_objs : objs w = conc <$> ρ;
  rep_mem : ∀ p c, mem w !! p = Some c ↔ ∃ x r, ρ !! x = Some r ∧ hp x r = p ∧ r_cells r = c;
  rep_inj : ∀ x y r s, ρ !! x = Some r → ρ !! y = Some s → hp x r = hp y s → x = y;
  rep_next : ∀ x r b, ρ !! x = Some r → r_home r = Some b → b < nextb w;
  rep_shape : ∀ x r, ρ !! x = Some r → shape r;
}.

(** the string [l] is stored in [r] *)
Definition holds (r : raw) (l : list char) : Prop :=
  r_siz r = length l ∧ ∃ rest, r_cells r = (Some <$> l) ++ Some NUL :: rest.

Lemma holds_cap r l : holds r l → length l ≤ cap r.
Proof.
  intros [_ [rest E]]. unfold cap. rewrite E, app_length, fmap_length. cbn [length]. lia.
Qed.
Lemma cap_len r : shape r → length (r_cells r) = cap r + 1.
Proof.
  unfold shape, cap. destruct (r_home r); [intros [(k & ? & ->) ?]; lia|lia].
Qed.

(** nothing but memory and objects changed *)
Definition same (w w' : world) : Prop :=
  nextb w' = nextb w ∧ nalloc w' = nalloc w ∧ ncopied w' = ncopied w.
Definition later (w w' : world) : Prop :=
  nextb w ≤ nextb w' ∧ nalloc w ≤ nalloc w' ∧ ncopied w ≤ ncopied w'.
Lemma same_refl w : same w w.
Proof. done. Qed.
Lemma same_trans w1 w2 w3 : same w1 w2 → same w2 w3 → same w1 w3.
Proof. unfold same. naive_solver congruence. Qed.
Lemma later_refl w : later w w.
Proof. unfold later. lia. Qed.
Lemma later_trans w1 w2 w3 : later w1 w2 → later w2 w3 → later w1 w3.
Proof. unfold later. lia. Qed.
Lemma same_later w w' : same w w' → later w w'.
Proof. unfold same, later. lia. Qed.

Lemma rep_obj w ρ x r : Rep w ρ → ρ !! x = Some r → objs w !! x = Some (conc r).
Proof. intros H Hx. rewrite (rep_objs _ _ H), lookup_fmap, Hx. done. Qed.
Lemma rep_obj_none w ρ x : Rep w ρ → ρ !! x = None → objs w !! x = None.
Proof. intros H Hx. rewrite (rep_objs _ _ H), lookup_fmap, Hx. done. Qed.
Lemma rep_cells w ρ x r : Rep w ρ → ρ !! x = Some r → mem w !! hp x r = Some (r_cells r).
Proof. intros H Hx. apply (rep_mem _ _ H). eauto. Qed.
Lemma rep_len w ρ x r : Rep w ρ → ρ !! x = Some r → length (r_cells r) = cap r + 1.
Proof. intros H Hx. by eapply cap_len, rep_shape. Qed.
Lemma rep_fresh w ρ : Rep w ρ → mem w !! (inr (nextb w) : bufid) = None.
Proof.
  intros H. destruct (mem w !! _) as [c|] eqn:E; [|done]. apply (rep_mem _ _ H) in E as (x & r & Hx & Hp & _).
  unfold hp in Hp. destruct (r_home r) eqn:Hh; [|done]. simplify_eq.
  pose proof (rep_next _ _ H _ _ _ Hx Hh). lia.
Qed.
Lemma rep_inline_none w ρ x : Rep w ρ → ρ !! x = None → mem w !! (inl x : bufid) = None.
Proof.
  intros H Hx. destruct (mem w !! _) as [c|] eqn:E; [|done]. apply (rep_mem _ _ H) in E as (y & r & Hy & Hp & _).
  unfold hp in Hp. destruct (r_home r); [done|]. simplify_eq.
Qed.
Lemma rep_inline_heap w ρ x r b : Rep w ρ → ρ !! x = Some r → r_home r = Some b → mem w !! (inl x : bufid) = None.
Proof.
  intros H Hx Hb. destruct (mem w !! _) as [c|] eqn:E; [|done]. apply (rep_mem _ _ H) in E as (y & s & Hy & Hp & _).
  unfold hp in Hp. destruct (r_home s) eqn:Hs; [done|]. simplify_eq.
Qed.

(** ** Changing one object *)
Definition mdel (ρ : raws) (x : nat) (h : gmap bufid buffer) : gmap bufid buffer :=
  match ρ !! x with Some r => delete (hp x r) h | None => h end.
Lemma Rep_del w w' ρ x : Rep w ρ →
  objs w' = delete x (objs w) → mem w' = mdel ρ x (mem w) → nextb w ≤ nextb w' → Rep w' (delete x ρ).
Proof.
  intros H Ho Hm Hn. split.
  - rewrite Ho, (rep_objs _ _ H). by rewrite fmap_delete.
  - intros p c. rewrite Hm. unfold mdel. destruct (ρ !! x) as [r|] eqn:Hx.
    + rewrite lookup_delete_Some, (rep_mem _ _ H). split.
      * intros (Hne & y & s & Hy & Hp & Hc). exists y, s. split; [|done].
        rewrite lookup_delete_ne; [done|]. intros ->. by simplify_eq.
      * intros (y & s & (Hne & Hy)%lookup_delete_Some & Hp & Hc). split; [|eauto].
        intros E. subst p. apply Hne. by eapply (rep_inj _ _ H).
    + rewrite (rep_mem _ _ H). rewrite (delete_notin ρ) by done. done.
  - intros y z r s [_ Hy]%lookup_delete_Some [_ Hz]%lookup_delete_Some. by eapply (rep_inj _ _ H).
  - intros y r b [_ Hy]%lookup_delete_Some Hb. pose proof (rep_next _ _ H _ _ _ Hy Hb). lia.
  - intros y r [_ Hy]%lookup_delete_Some. by eapply (rep_shape _ _ H).
Qed.
Lemma Rep_add w w' ρ x r' : Rep w ρ → ρ !! x = None →
  objs w' = <[x:=conc r']> (objs w) → mem w' = <[hp x r':=r_cells r']> (mem w) → nextb w ≤ nextb w' →
  mem w !! hp x r' = None → (∀ b, r_home r' = Some b → b < nextb w') → shape r' →
  Rep w' (<[x:=r']> ρ).
Proof.
  intros H Hx Ho Hm Hn Hf Hb Hs.
  assert (Hne : ∀ y s, ρ !! y = Some s → hp y s ≠ hp x r').
  { intros y s Hy E. pose proof (rep_cells _ _ _ _ H Hy). congruence. }
  split.
  - rewrite Ho, (rep_objs _ _ H). by rewrite fmap_insert.
  - intros p c. rewrite Hm. rewrite lookup_insert_Some, (rep_mem _ _ H). split.
    + intros [[<- <-]|(Hpne & y & s & Hy & Hp & Hc)].
      * exists x, r'. by rewrite lookup_insert.
      * exists y, s. split; [|done]. rewrite lookup_insert_ne; [done|]. intros ->. congruence.
    + intros (y & s & [[<- <-]|[Hyne Hy]]%lookup_insert_Some & Hp & Hc); [by left|right].
      split; [|eauto]. intros E. subst p. by eapply Hne.
  - intros y z r s [[<- <-]|[Hy1 Hy]]%lookup_insert_Some [[<- <-]|[Hz1 Hz]]%lookup_insert_Some E; try done.
    + by destruct (Hne z s).
    + by destruct (Hne y r).
    + by eapply (rep_inj _ _ H).
  - intros y r b [[<- <-]|[Hy1 Hy]]%lookup_insert_Some Hh; [by apply Hb|].
    pose proof (rep_next _ _ H _ _ _ Hy Hh). lia.
  - intros y r [[<- <-]|[Hy1 Hy]]%lookup_insert_Some; [done|]. by eapply (rep_shape _ _ H).
Qed.
Lemma Rep_upd w w' ρ x r' : Rep w ρ →
  objs w' = <[x:=conc r']> (objs w) → mem w' = <[hp x r':=r_cells r']> (mdel ρ x (mem w)) → nextb w ≤ nextb w' →
  mdel ρ x (mem w) !! hp x r' = None → (∀ b, r_home r' = Some b → b < nextb w') → shape r' →
  Rep w' (<[x:=r']> ρ).
Proof.
  intros H Ho Hm Hn Hf Hb Hs.
  assert (Rep (with_mem (mdel ρ x (mem w)) (with_objs (delete x (objs w)) w)) (delete x ρ)) as H1 by (by eapply Rep_del).
  rewrite <-(insert_delete_insert ρ). eapply Rep_add; [exact H1|..]; try done.
  - by rewrite lookup_delete.
  - rewrite Ho. cbn [objs with_objs with_mem]. by rewrite insert_delete_insert.
Qed.

(** overwriting characters *)
Lemma Rep_write w ρ x r c : Rep w ρ → ρ !! x = Some r → length c = length (r_cells r) →
  Rep (mins (hp x r) c w) (<[x:=Raw (r_home r) (r_siz r) c]> ρ).
Proof.
  intros H Hx Hc. eapply Rep_upd; [exact H|..]; cbn [objs mem nextb mins with_mem].
  - symmetry. apply insert_id. rewrite (rep_obj _ _ _ _ H Hx). f_equal. unfold conc, cap. cbn [r_home r_cells r_siz].
    by rewrite Hc.
  - unfold mdel. rewrite Hx. unfold hp at 2. cbn [r_home r_cells]. fold (hp x r). by rewrite insert_delete_insert.
  - done.
  - unfold mdel. rewrite Hx. unfold hp at 2. cbn [r_home]. fold (hp x r). by rewrite lookup_delete.
  - intros b. cbn [r_home]. by eapply (rep_next _ _ H).
  - pose proof (rep_shape _ _ H _ _ Hx) as Hs. unfold shape in *. cbn [r_home r_cells]. by rewrite Hc.
Qed.
(** the size member *)
Lemma Rep_siz w w' ρ x r n : Rep w ρ → ρ !! x = Some r →
  objs w' = <[x:=conc (Raw (r_home r) n (r_cells r))]> (objs w) → mem w' = mem w → nextb w' = nextb w →
  Rep w' (<[x:=Raw (r_home r) n (r_cells r)]> ρ).
Proof.
  intros H Hx Ho Hm Hn. eapply Rep_upd; [exact H|..].
  - done.
  - rewrite Hm. unfold mdel. rewrite Hx. unfold hp at 1. cbn [r_home r_cells]. fold (hp x r).
    rewrite insert_delete_insert. symmetry. apply insert_id. by eapply rep_cells.
  - lia.
  - unfold mdel. rewrite Hx. unfold hp at 2. cbn [r_home]. fold (hp x r). by rewrite lookup_delete.
  - intros b. cbn [r_home]. rewrite Hn. by eapply (rep_next _ _ H).
  - exact (rep_shape _ _ H _ _ Hx).
Qed.

(** ** Reading and writing the members *)
Lemma get_str_eq w x s : objs w !! x = Some s → get_str x w = Ok s w.
Proof. unfold get_str. by intros ->. Qed.
Lemma read_heap_eq w x d p c n : objs w !! x = Some (Str d (UHeap p c n)) → read_heap x w = Ok (p, c, n) w.
Proof. intros H. unfold read_heap. by erewrite bind_ok by by apply get_str_eq. Qed.
Lemma read_sso_eq w x d n : objs w !! x = Some (Str d (USso n)) → read_sso x w = Ok n w.
Proof. intros H. unfold read_sso. by erewrite bind_ok by by apply get_str_eq. Qed.
Lemma write_dealloc_eq w x s b : objs w !! x = Some s →
  write_dealloc x b w = Ok tt (with_objs (<[x:=Str b (s_u s)]> (objs w)) w).
Proof. intros H. unfold write_dealloc. by erewrite bind_ok by by apply get_str_eq. Qed.
Lemma write_heap_eq w x s p c n : objs w !! x = Some s →
  write_heap x (p, c, n) w =
    Ok tt (with_mem (delete (inl x) (mem w)) (with_objs (<[x:=Str (s_dealloc s) (UHeap p c n)]> (objs w)) w)).
Proof. intros H. unfold write_heap. by erewrite bind_ok by by apply get_str_eq. Qed.
Lemma write_sso_active w x d k n : objs w !! x = Some (Str d (USso k)) →
  write_sso x n w = Ok tt (with_objs (<[x:=Str d (USso n)]> (objs w)) w).
Proof. intros H. unfold write_sso. by erewrite bind_ok by by apply get_str_eq. Qed.
Definition not_sso (u : uni) : Prop := match u with USso _ => False | _ => True end.
Lemma write_sso_inactive w x d u n : objs w !! x = Some (Str d u) → not_sso u →
  write_sso x n w = Ok tt (with_mem (<[inl x:=replicate (sso_size + 1) None]> (mem w))
                             (with_objs (<[x:=Str d (USso n)]> (objs w)) w)).
Proof. intros H Hu. unfold write_sso. erewrite bind_ok by by apply get_str_eq. by destruct u. Qed.

Lemma str_data_eq w ρ x r : Rep w ρ → ρ !! x = Some r → str_data x w = Ok (hp x r, 0) w.
Proof.
  intros H Hx. pose proof (rep_obj _ _ _ _ H Hx) as Ho. unfold str_data.
  erewrite bind_ok by by apply get_str_eq. unfold conc, hp in *. destruct (r_home r); cbn [s_dealloc].
  - by erewrite bind_ok by by eapply read_heap_eq.
  - by erewrite bind_ok by by eapply read_sso_eq.
Qed.
Lemma str_size_eq w ρ x r : Rep w ρ → ρ !! x = Some r → str_size x w = Ok (r_siz r) w.
Proof.
  intros H Hx. pose proof (rep_obj _ _ _ _ H Hx) as Ho. unfold str_size.
  erewrite bind_ok by by apply get_str_eq. unfold conc in *. destruct (r_home r); cbn [s_dealloc].
  - by erewrite bind_ok by by eapply read_heap_eq.
  - by eapply read_sso_eq.
Qed.
Lemma str_capacity_eq w ρ x r : Rep w ρ → ρ !! x = Some r → str_capacity x w = Ok (cap r) w.
Proof.
  intros H Hx. pose proof (rep_obj _ _ _ _ H Hx) as Ho. pose proof (rep_shape _ _ H _ _ Hx) as Hs. unfold str_capacity.
  erewrite bind_ok by by apply get_str_eq. unfold conc, shape in *. destruct (r_home r); cbn [s_dealloc].
  - by erewrite bind_ok by by eapply read_heap_eq.
  - unfold ret, cap. f_equal. lia.
Qed.
Lemma temp_name_eq w ρ : Rep w ρ → ∃ t, temp_name w = Ok t w ∧ ρ !! t = None.
Proof.
  intros H. exists (fresh (dom (objs w))). split; [done|].
  apply not_elem_of_dom. rewrite <-(dom_fmap_L conc), <-(rep_objs _ _ H). apply is_fresh.
Qed.

(** a cell of an existing string *)
Lemma rd_cell w ρ x r i v : Rep w ρ → ρ !! x = Some r → r_cells r !! i = Some (Some v) → rd (hp x r, i) w = Ok v w.
Proof. intros H Hx Hi. eapply rd_eq; [|exact Hi]. by eapply rep_cells. Qed.

(** set_size *)
Lemma set_size_eq w ρ x r n : cfg_ok → Rep w ρ → ρ !! x = Some r → n ≤ cap r →
  ∃ w', set_size x n w = Ok tt w' ∧ same w w' ∧
        Rep w' (<[x:=Raw (r_home r) n (<[n:=Some NUL]> (r_cells r))]> ρ).
Proof.
  intros Hcfg H Hx Hn. pose proof (rep_obj _ _ _ _ H Hx) as Ho. pose proof (rep_len _ _ _ _ H Hx) as Hl.
  pose proof (rep_shape _ _ H _ _ Hx) as Hs. pose proof (rep_cells _ _ _ _ H Hx) as Hm.
  set (w1 := with_objs (<[x:=conc (Raw (r_home r) n (r_cells r))]> (objs w)) w).
  assert (H1 : Rep w1 (<[x:=Raw (r_home r) n (r_cells r)]> ρ)) by (by eapply Rep_siz).
  exists (mins (hp x r) (<[n:=Some NUL]> (r_cells r)) w1). split; [|split; [done|]].
  - unfold set_size. erewrite bind_ok by by apply get_str_eq.
    unfold conc, hp, w1 in *. cbn [r_home r_siz] in *. destruct (r_home r) as [b|] eqn:Hb; cbn [s_dealloc].
    + erewrite bind_ok by by eapply read_heap_eq. cbn [fst snd].
      erewrite bind_ok by by eapply write_heap_eq. cbn [s_dealloc].
      rewrite (wr_eq _ _ (r_cells r)).
      * unfold mins, with_mem, with_objs. cbn [objs mem nextb nalloc ncopied].
        rewrite delete_notin; [done|]. by eapply rep_inline_heap.
      * cbn [mem with_mem]. by rewrite lookup_delete_ne.
      * lia.
    + assert (to_char n = n) as ->.
      { unfold to_char. apply Nat.mod_small. unfold shape in Hs. rewrite Hb in Hs.
        destruct Hcfg as (_ & _ & Hsso & _). lia. }
      erewrite bind_ok by by eapply write_sso_active.
      rewrite (wr_eq _ _ (r_cells r)); [done|done|lia].
  - rewrite <-(insert_insert ρ x _ (Raw (r_home r) n (r_cells r))).
    change (hp x r) with (hp x (Raw (r_home r) n (r_cells r))).
    eapply (Rep_write w1 _ x (Raw (r_home r) n (r_cells r))); [done|by rewrite lookup_insert|].
    by rewrite insert_length.
Qed.

(** ~storage_t() *)
Lemma release_eq w ρ x r : Rep w ρ → ρ !! x = Some r →
  release x w = Ok tt (match r_home r with Some _ => with_mem (delete (hp x r) (mem w)) w | None => w end).
Proof.
  intros H Hx. pose proof (rep_obj _ _ _ _ H Hx) as Ho. pose proof (rep_cells _ _ _ _ H Hx) as Hm.
  unfold release. erewrite bind_ok by by apply get_str_eq. unfold conc, hp in *.
  destruct (r_home r); cbn [s_dealloc]; [|done].
  erewrite bind_ok by by eapply read_heap_eq. cbn [fst]. unfold delete_char. rewrite Hm, Nat.eqb_refl. done.
Qed.
Lemma dtor_eq w ρ x r : Rep w ρ → ρ !! x = Some r →
  ∃ w', storage_dtor x w = Ok tt w' ∧ same w w' ∧ Rep w' (delete x ρ).
Proof.
  intros H Hx. unfold storage_dtor. erewrite bind_ok by by eapply release_eq.
  eexists. split; [reflexivity|]. split; [by destruct (r_home r)|].
  eapply Rep_del; [exact H|..].
  - by destruct (r_home r).
  - unfold mdel. rewrite Hx. unfold hp. destruct (r_home r) eqn:Hb; cbn [mem with_mem with_objs]; [|done].
    rewrite delete_notin; [done|]. rewrite lookup_delete_ne by done. by eapply rep_inline_heap.
  - by destruct (r_home r).
Qed.

(** storage_t() *)
Definition raw0 : raw := Raw None 0 (Some NUL :: replicate sso_size None).
Lemma holds_raw0 : holds raw0 [].
Proof. split; [done|]. eexists. reflexivity. Qed.
Lemma shape_raw0 : shape raw0.
Proof. unfold shape, raw0. cbn [r_home r_cells length]. rewrite replicate_length. lia. Qed.
Lemma clear_raw_eq w x d u : objs w !! x = Some (Str d u) → not_sso u →
  clear_to_sso x w = Ok tt (with_mem (<[inl x:=r_cells raw0]> (mem w)) (with_objs (<[x:=conc raw0]> (objs w)) w)).
Proof.
  intros Ho Hu. unfold clear_to_sso.
  erewrite bind_ok by by eapply write_dealloc_eq. cbn [s_u].
  erewrite bind_ok.
  2:{ eapply write_sso_inactive; [|exact Hu]. cbn [objs with_objs]. by rewrite lookup_insert. }
  erewrite wr_eq.
  2:{ cbn [mem with_mem]. by rewrite lookup_insert. }
  2:{ rewrite replicate_length. lia. }
  unfold mins, with_mem, with_objs. cbn [objs mem nextb nalloc ncopied].
  rewrite !insert_insert. do 3 f_equal. rewrite Nat.add_1_r. done.
Qed.
Lemma default_eq w ρ x : Rep w ρ → ρ !! x = None →
  ∃ w', storage_default x w = Ok tt w' ∧ same w w' ∧ Rep w' (<[x:=raw0]> ρ).
Proof.
  intros H Hx. unfold storage_default, put_str. erewrite bind_ok by done.
  erewrite clear_raw_eq; [|cbn [objs with_objs]; by rewrite lookup_insert|done].
  eexists. split; [reflexivity|]. split; [done|].
  eapply Rep_add; [exact H|done|..]; cbn [objs mem nextb with_mem with_objs].
  - by rewrite insert_insert.
  - done.
  - done.
  - by eapply rep_inline_none.
  - done.
  - apply shape_raw0.
Qed.

(** storage_t(std::size_t) *)
Lemma footprint_even : cfg_ok → Nat.even footprint = true.
Proof. intros (_ & He & _). unfold footprint. by rewrite Nat.even_mul, He, orb_true_r. Qed.
Lemma heap_cap_spec n : cfg_ok → roomy n →
  ∃ k, 2 ≤ k ∧ heap_cap n = k * footprint ∧ n ≤ heap_cap n ∧ wadd (heap_cap n) 1 = heap_cap n + 1 ∧
       heap_cap n < (2 * footprint) `max` (n + footprint) + (if decide (n ≤ footprint) then 1 else 0).
Proof.
  intros Hcfg Hr. unfold heap_cap, roomy in *. pose proof (footprint_even Hcfg) as Hev.
  destruct Hcfg as (Hp & _ & _ & Hw & Hmax). pose proof (ptrdiff_half Hw) as Hhalf.
  assert (1 ≤ footprint) by (unfold footprint; lia).
  rewrite (wadd_small n) by lia.
  set (d := (n + (footprint - 1)) `div` footprint).
  assert (Hd1 : n ≤ d * footprint).
  { pose proof (Nat.div_mod (n + (footprint - 1)) footprint). pose proof (Nat.mod_upper_bound (n + (footprint - 1)) footprint).
    unfold d. lia. }
  assert (Hd2 : d * footprint < n + footprint).
  { pose proof (Nat.div_mod (n + (footprint - 1)) footprint). pose proof (Nat.mod_upper_bound (n + (footprint - 1)) footprint).
    unfold d. lia. }
  exists (2 `max` d). sp; [lia|done|nia| |].
  - assert (Hb : (Z.of_nat ((2 `max` d) * footprint) < 2 ^ Z.of_nat wbits)%Z).
    { destruct (Nat.max_spec 2 d) as [[? ->]|[? ->]]; lia. }
    assert (Hne : Z.of_nat ((2 `max` d) * footprint) ≠ (2 ^ Z.of_nat wbits - 1)%Z).
    { intros E. rewrite <-Hhalf in E.
      assert ((2 `max` d) * footprint = 2 * ptrdiff_max + 1) as E' by lia.
      assert (Nat.even ((2 `max` d) * footprint) = true) as H1 by (by rewrite Nat.even_mul, Hev, orb_true_r).
      rewrite E' in H1. rewrite Nat.add_comm, Nat.even_add_mul_2 in H1. done. }
    apply wadd_small. lia.
  - destruct (Nat.max_spec 2 d) as [[? ->]|[? ->]]; case_decide; nia.
Qed.
Lemma heap_cap_bound n : cfg_ok → roomy n → heap_cap n ≤ (2 * footprint) `max` (n + footprint - 1).
Proof.
  intros Hcfg Hr. unfold heap_cap, roomy in *. destruct Hcfg as (Hp & _ & _ & Hw & Hmax).
  assert (1 ≤ footprint) by (unfold footprint; lia).
  rewrite (wadd_small n) by lia.
  set (d := (n + (footprint - 1)) `div` footprint).
  assert (Hd2 : d * footprint < n + footprint).
  { pose proof (Nat.div_mod (n + (footprint - 1)) footprint). pose proof (Nat.mod_upper_bound (n + (footprint - 1)) footprint).
    unfold d. lia. }
  destruct (Nat.max_spec 2 d) as [[? ->]|[? ->]]; lia.
Qed.

Definition newly (w : world) (n : nat) (w' : world) (q : raw) : Prop :=
  holds q [] ∧ n ≤ cap q ∧ ncopied w' = ncopied w ∧ later w w' ∧
  (n ≤ sso_size → q = raw0 ∧ same w w') ∧
  (sso_size < n → r_home q = Some (nextb w) ∧ cap q = heap_cap n ∧ nalloc w' = S (nalloc w)).
Definition refused (w : world) (n : nat) (e : exn) (w' : world) : Prop :=
  e = BadAlloc ∧ nalloc w' = S (nalloc w) ∧ ncopied w' = ncopied w ∧ nextb w' = nextb w ∧
  (alloc_fails (nalloc w) = true ∨ ptrdiff_max < n + footprint).
Lemma storage_new_run w ρ x n : cfg_ok → Rep w ρ → ρ !! x = None → roomy n →
  run_to (storage_new x n) w (λ _ w', ∃ q, Rep w' (<[x:=q]> ρ) ∧ newly w n w' q)
                             (λ e w', Rep w' ρ ∧ sso_size < n ∧ refused w n e w').
Proof.
  intros Hcfg H Hx Hr. unfold storage_new.
  destruct (Nat.ltb_spec sso_size n) as [Hlt|Hge].
  2:{ destruct (default_eq w ρ x H Hx) as (w' & E & Hs & H'). eapply run_to_eq; [exact E|].
      exists raw0. split; [done|]. split; [apply holds_raw0|]. sp.
      - unfold cap, raw0. cbn [r_cells length]. rewrite replicate_length. lia.
      - apply Hs.
      - by apply same_later.
      - done.
      - lia. }
  destruct (heap_cap_spec n Hcfg Hr) as (k & Hk & Ek & Hn & Hw1 & _).
  pose proof (heap_cap_bound n Hcfg Hr) as Hb. rewrite Hw1.
  eapply run_to_bind_ok; [done|]. apply run_to_bind. unfold run_to at 1, new_char.
  destruct (alloc_fails (nalloc w)) eqn:Hal; cbn [orb].
  { split; [|split; [done|]].
    - destruct H as [H1 H2 H3 H4 H5]. by split.
    - split; [done|]. sp; try done. by left. }
  destruct (Nat.ltb_spec ptrdiff_max (heap_cap n + 1)) as [Hbig|Hfit].
  { split; [|split; [done|]].
    - destruct H as [H1 H2 H3 H4 H5]. by split.
    - split; [done|]. sp; try done. right.
      destruct Hcfg as (_ & _ & _ & _ & ?). lia. }
  unfold put_str. eapply run_to_bind_ok; [done|].
  eapply run_to_bind_ok.
  { apply (write_heap_eq _ _ (Str (Some (running (nextb w))) UNone)). cbn [objs with_objs]. by rewrite lookup_insert. }
  cbn [objs with_objs with_mem mem nextb nalloc ncopied s_dealloc].
  eapply run_to_eq.
  { eapply wr_eq.
    - cbn [mem with_mem]. rewrite lookup_delete_ne by done. by rewrite lookup_insert.
    - rewrite replicate_length. lia. }
  set (q := Raw (Some (nextb w)) 0 (<[0:=Some NUL]> (replicate (heap_cap n + 1) None))).
  assert (Hlen : length (r_cells q) = heap_cap n + 1).
  { cbn [q r_cells]. by rewrite insert_length, replicate_length. }
  exists q. split.
  - eapply Rep_add; [exact H|done|..]; cbn [objs mem nextb with_mem with_objs mins q hp r_home r_cells].
    + rewrite insert_insert. f_equal. unfold conc, cap. fold q. rewrite Hlen. cbn [q r_home r_siz].
      by rewrite Nat.add_sub.
    + rewrite delete_insert_ne by done. rewrite insert_insert. f_equal.
      rewrite delete_notin; [done|]. by eapply rep_inline_none.
    + lia.
    + by eapply rep_fresh.
    + intros b [= <-]. lia.
    + unfold shape. fold q. rewrite Hlen. cbn [q r_home]. split; [|done]. exists k. lia.
  - unfold newly. assert (cap q = heap_cap n) as -> by (unfold cap; lia). sp; try done.
    + split; [done|]. exists (replicate (heap_cap n) None). cbn [q r_cells]. rewrite Nat.add_1_r. done.
    + unfold later. cbn. lia.
    + intros ?. lia.
Qed.

(** copying one inline buffer over another *)
Lemma holds_lookup r l k v : holds r l → l !! k = Some v → r_cells r !! k = Some (Some v).
Proof.
  intros [_ [rest ->]] Hk. apply lookup_app_l_Some. by rewrite list_lookup_fmap, Hk.
Qed.
Lemma holds_lookup_nul r l k v : holds r l → (l ++ [NUL]) !! k = Some v → r_cells r !! k = Some (Some v).
Proof.
  intros [_ [rest ->]] Hk.
  assert ((Some <$> l) ++ Some NUL :: rest = (Some <$> (l ++ [NUL])) ++ rest) as ->.
  { rewrite fmap_app, <-app_assoc. done. }
  apply lookup_app_l_Some. by rewrite list_lookup_fmap, Hk.
Qed.
Lemma holds_full l c h : length l + 1 ≤ length c → holds (Raw h (length l) (write_at 0 (Some <$> (l ++ [NUL])) c)) l.
Proof.
  intros Hl. split; [done|]. exists (drop (length l + 1) c). cbn [r_cells]. unfold write_at. cbn [take app].
  rewrite fmap_length, app_length. cbn [length]. rewrite fmap_app, <-app_assoc. done.
Qed.

(** storage_t(storage_t &&), for a source holding [l] *)
Definition moved_raw (r : raw) : raw := match r_home r with Some _ => raw0 | None => r end.
Lemma holds_moved r l : holds r l → holds (moved_raw r) (if r_home r then [] else l).
Proof. intros H. unfold moved_raw. destruct (r_home r); [apply holds_raw0|done]. Qed.

Lemma move_heap_eq w ρ x y r b : ρ !! x = None → x ≠ y → Rep w ρ → ρ !! y = Some r → r_home r = Some b →
  ∀ w0 d u, objs w0 = <[x:=Str d u]> (objs w) → mem w0 = mem w ∨ (∃ c, mem w0 = <[inl x:=c]> (mem w)) →
  nextb w0 = nextb w → d = Some (running b) →
  ∃ w', move_heap x y w0 = Ok tt w' ∧ nextb w' = nextb w ∧ nalloc w' = nalloc w0 ∧ ncopied w' = ncopied w0 ∧
        Rep w' (<[y:=raw0]> (<[x:=r]> ρ)).
Proof.
  intros Hx Hxy H Hy Hb w0 d u Ho Hm Hn ->.
  pose proof (rep_obj _ _ _ _ H Hy) as Hoy. pose proof (rep_cells _ _ _ _ H Hy) as Hmy.
  pose proof (rep_inline_heap _ _ _ _ _ H Hy Hb) as Hiy. pose proof (rep_inline_none _ _ _ H Hx) as Hix.
  unfold conc, hp in Hoy, Hmy. rewrite Hb in Hoy, Hmy.
  unfold move_heap. erewrite bind_ok.
  2:{ eapply read_heap_eq. rewrite Ho, lookup_insert_ne by done. exact Hoy. }
  erewrite bind_ok.
  2:{ eapply write_heap_eq. rewrite Ho, lookup_insert. done. }
  erewrite clear_raw_eq.
  2:{ cbn [objs with_objs with_mem]. rewrite lookup_insert_ne by done. rewrite Ho, lookup_insert_ne by done. exact Hoy. }
  2:{ done. }
  eexists. split; [reflexivity|]. cbn [objs mem nextb nalloc ncopied with_objs with_mem s_dealloc].
  sp; [done..|].
  assert (Hm' : delete (inl x) (mem w0) = mem w).
  { destruct Hm as [->|[c ->]]; [by rewrite delete_notin|]. by rewrite delete_insert. }
  rewrite Hm', Ho. rewrite insert_insert.
  (* remove y, add x with y's block, add y *)
  assert (H1 : Rep (with_mem (delete (inr b) (mem w)) (with_objs (delete y (objs w)) w)) (delete y ρ)).
  { eapply Rep_del; [exact H|done| |done]. unfold mdel, hp. by rewrite Hy, Hb. }
  assert (H2 : Rep (with_mem (mem w) (with_objs (<[x:=conc r]> (delete y (objs w))) w)) (<[x:=r]> (delete y ρ))).
  { eapply Rep_add; [exact H1|by rewrite lookup_delete_ne| | |done| | |].
    - done.
    - cbn [mem with_mem]. unfold hp. rewrite Hb. rewrite insert_delete_insert. by rewrite insert_id.
    - cbn [mem with_mem]. unfold hp. rewrite Hb. by rewrite lookup_delete.
    - intros b' Hb'. cbn [nextb with_mem with_objs]. by eapply (rep_next _ _ H).
    - by eapply (rep_shape _ _ H). }
  rewrite <-(delete_insert_ne ρ) in H2 by done.
  rewrite <-(insert_delete_insert (<[x:=r]> ρ)).
  eapply Rep_add; [exact H2|by rewrite lookup_delete|..]; cbn [objs mem nextb with_mem with_objs raw0 hp r_home r_cells conc].
  - rewrite <-(delete_insert_ne (objs w)) by done. rewrite insert_delete_insert.
    unfold conc. rewrite Hb. done.
  - done.
  - lia.
  - done.
  - done.
  - apply shape_raw0.
Qed.

Lemma move_new_eq w ρ x y r l : Rep w ρ → ρ !! x = None → ρ !! y = Some r → holds r l → cfg_ok →
  ∃ w' r', storage_move_new x y w = Ok tt w' ∧ same w w' ∧ Rep w' (<[y:=moved_raw r]> (<[x:=r']> ρ)) ∧
           holds r' l ∧ r_home r' = r_home r ∧ (is_Some (r_home r) → r' = r).
Proof.
  intros H Hx Hy Hl Hcfg. assert (Hxy : x ≠ y) by congruence.
  pose proof (rep_obj _ _ _ _ H Hy) as Hoy. pose proof (rep_cells _ _ _ _ H Hy) as Hmy.
  unfold storage_move_new. erewrite bind_ok by by apply get_str_eq.
  unfold put_str. erewrite bind_ok by done.
  unfold moved_raw. destruct (r_home r) as [b|] eqn:Hb.
  - assert (s_dealloc (conc r) = Some (running b)) as -> by (unfold conc; by rewrite Hb).
    destruct (move_heap_eq w ρ x y r b Hx Hxy H Hy Hb (with_objs (<[x:=Str (Some (running b)) UNone]> (objs w)) w) (Some (running b)) UNone
                eq_refl (or_introl eq_refl) eq_refl eq_refl) as (w' & E & ? & ? & ? & H').
    exists w', r. rewrite E. sp; try done.
  - assert (conc r = Str None (USso (r_siz r))) as Hc by (unfold conc; by rewrite Hb). rewrite Hc in *.
    cbn [s_dealloc]. unfold copy_sso. unfold hp in Hmy. rewrite Hb in Hmy.
    erewrite bind_ok.
    2:{ eapply read_sso_eq. cbn [objs with_objs]. rewrite lookup_insert_ne by done. exact Hoy. }
    erewrite bind_ok.
    2:{ eapply (write_sso_inactive _ _ None UNone); [|done]. cbn [objs with_objs]. by rewrite lookup_insert. }
    cbn [objs mem nextb nalloc ncopied with_objs with_mem].
    pose proof (holds_cap _ _ Hl) as Hcap. pose proof (rep_len _ _ _ _ H Hy) as Hlen.
    pose proof (rep_shape _ _ H _ _ Hy) as Hs. unfold shape in Hs. rewrite Hb in Hs.
    assert (r_siz r + 1 = length (l ++ [NUL])) as -> by (rewrite app_length; cbn [length]; destruct Hl as [-> _]; lia).
    erewrite copy_n_eq.
    2:{ cbn [mem with_mem]. rewrite lookup_insert_ne by congruence. exact Hmy. }
    2:{ intros k v Hk. rewrite Nat.add_0_l. by eapply holds_lookup_nul. }
    2:{ cbn [mem with_mem]. by rewrite lookup_insert. }
    2:{ rewrite replicate_length, app_length. cbn [length]. lia. }
    2:{ congruence. }
    set (r' := Raw None (length l) (write_at 0 (Some <$> (l ++ [NUL])) (replicate (sso_size + 1) None))).
    assert (Hlr : length (r_cells r') = sso_size + 1).
    { cbn [r' r_cells]. rewrite write_at_length; [by rewrite replicate_length|].
      rewrite fmap_length, app_length, replicate_length. cbn [length]. lia. }
    eexists _, r'. split; [reflexivity|]. split; [done|]. sp.
    + rewrite (insert_commute ρ) by congruence. rewrite (insert_id ρ) by done.
      eapply Rep_add; [exact H|done|..]; cbn [objs mem nextb with_mem with_objs mins hp r' r_home].
      * rewrite !insert_insert. unfold conc. cbn [r' r_home r_siz]. by destruct Hl as [-> _].
      * by rewrite insert_insert.
      * done.
      * by eapply rep_inline_none.
      * done.
      * exact Hlr.
    + apply holds_full. rewrite replicate_length. lia.
    + done.
    + by intros [? ?].
Qed.

(** operator=(storage_t &&), for a source holding [l] *)
Lemma move_assign_eq w ρ x y r s l : Rep w ρ → x ≠ y → ρ !! x = Some s → ρ !! y = Some r → holds r l → cfg_ok →
  ∃ w' r', storage_move_assign x y w = Ok tt w' ∧ same w w' ∧ Rep w' (<[y:=moved_raw r]> (<[x:=r']> ρ)) ∧
           holds r' l ∧ r_home r' = r_home r ∧ (is_Some (r_home r) → r' = r).
Proof.
  intros H Hxy Hx Hy Hl Hcfg.
  pose proof (rep_obj _ _ _ _ H Hx) as Hox. pose proof (rep_cells _ _ _ _ H Hx) as Hmx.
  pose proof (rep_obj _ _ _ _ H Hy) as Hoy. pose proof (rep_cells _ _ _ _ H Hy) as Hmy.
  unfold storage_move_assign. rewrite decide_False by done.
  erewrite bind_ok by by eapply release_eq.
  set (w0 := match r_home s with Some _ => with_mem (delete (hp x s) (mem w)) w | None => w end).
  assert (Ho0 : objs w0 = objs w) by (unfold w0; by destruct (r_home s)).
  assert (Hs0 : same w w0) by (unfold w0; by destruct (r_home s)).
  erewrite bind_ok by (apply get_str_eq; rewrite Ho0; exact Hoy).
  erewrite bind_ok by (eapply write_dealloc_eq; rewrite Ho0; exact Hox).
  (* the state without x *)
  assert (Hd : Rep (with_mem (mdel ρ x (mem w)) (with_objs (delete x (objs w)) w)) (delete x ρ)) by (by eapply Rep_del).
  assert (Hyd : delete x ρ !! y = Some r) by by rewrite lookup_delete_ne.
  unfold moved_raw. destruct (r_home r) as [b|] eqn:Hb.
  - assert (s_dealloc (conc r) = Some (running b)) as -> by (unfold conc; by rewrite Hb).
    destruct (move_heap_eq _ (delete x ρ) x y r b (lookup_delete ρ x) Hxy Hd Hyd Hb
                (with_objs (<[x:=Str (Some (running b)) (s_u (conc s))]> (objs w0)) w0) (Some (running b)) (s_u (conc s)))
      as (w' & E & En & Ea & Ec & H').
    { cbn [objs with_objs with_mem]. rewrite Ho0, insert_delete_insert. reflexivity. }
    { cbn [mem with_objs with_mem]. unfold w0, mdel. rewrite Hx. unfold hp. destruct (r_home s) eqn:Hsh.
      - by left.
      - right. exists (r_cells s). rewrite insert_delete_insert. symmetry. apply insert_id.
        unfold hp in Hmx. by rewrite Hsh in Hmx. }
    { cbn [nextb with_objs with_mem]. apply Hs0. }
    { done. }
    exists w', r. cbn [nalloc ncopied nextb with_objs with_mem] in *. rewrite E.
    rewrite insert_delete_insert in H'. sp; try done.
    unfold same in *. destruct Hs0 as (? & ? & ?). sp; congruence.
  - assert (conc r = Str None (USso (r_siz r))) as Hc by (unfold conc; by rewrite Hb). rewrite Hc in *.
    cbn [s_dealloc]. unfold copy_sso. unfold hp in Hmy. rewrite Hb in Hmy.
    erewrite bind_ok.
    2:{ eapply read_sso_eq. cbn [objs with_objs]. rewrite lookup_insert_ne by done. rewrite Ho0. exact Hoy. }
    pose proof (holds_cap _ _ Hl) as Hcap. pose proof (rep_len _ _ _ _ H Hy) as Hlen.
    pose proof (rep_shape _ _ H _ _ Hy) as Hs. unfold shape in Hs. rewrite Hb in Hs.
    (* the buffer written to *)
    set (c := match r_home s with Some _ => replicate (sso_size + 1) None | None => r_cells s end).
    assert (Hlc : length c = sso_size + 1).
    { unfold c. pose proof (rep_shape _ _ H _ _ Hx) as Hsx. unfold shape in Hsx.
      destruct (r_home s); [by rewrite replicate_length|done]. }
    erewrite bind_ok.
    2:{ instantiate (1 := with_mem (<[inl x:=c]> (mdel ρ x (mem w)))
                            (with_objs (<[x:=Str None (USso (r_siz r))]> (objs w)) w0)).
        instantiate (1 := tt).
        unfold w0, c, mdel in *. rewrite Hx. unfold hp, conc in *. destruct (r_home s) as [bs|] eqn:Hsh.
        - erewrite write_sso_inactive; [|cbn [objs with_objs]; by rewrite lookup_insert|done].
          unfold with_mem, with_objs. cbn [objs mem nextb nalloc ncopied]. by rewrite insert_insert.
        - erewrite write_sso_active by (cbn [objs with_objs]; by rewrite lookup_insert).
          unfold with_mem, with_objs. cbn [objs mem nextb nalloc ncopied s_u]. rewrite insert_insert.
          rewrite insert_delete_insert. by rewrite (insert_id (mem w)). }
    assert (r_siz r + 1 = length (l ++ [NUL])) as -> by (rewrite app_length; cbn [length]; destruct Hl as [-> _]; lia).
    erewrite copy_n_eq.
    2:{ cbn [mem with_mem]. rewrite lookup_insert_ne by congruence. unfold mdel. rewrite Hx.
        rewrite lookup_delete_ne; [exact Hmy|].
        intros E. apply Hxy. eapply (rep_inj _ _ H _ _ _ _ Hx Hy). unfold hp at 2. by rewrite Hb. }
    2:{ intros k v Hk. rewrite Nat.add_0_l. by eapply holds_lookup_nul. }
    2:{ cbn [mem with_mem]. by rewrite lookup_insert. }
    2:{ rewrite app_length. cbn [length]. lia. }
    2:{ congruence. }
    set (r' := Raw None (length l) (write_at 0 (Some <$> (l ++ [NUL])) c)).
    assert (Hlr : length (r_cells r') = sso_size + 1).
    { cbn [r' r_cells]. rewrite write_at_length; [done|].
      rewrite fmap_length, app_length. cbn [length]. lia. }
    eexists _, r'. split; [reflexivity|]. split; [exact Hs0|]. sp.
    + rewrite (insert_commute ρ) by congruence. rewrite (insert_id ρ) by done.
      eapply Rep_upd; [exact H|..]; cbn [objs mem nextb with_mem with_objs mins hp r' r_home].
      * unfold conc. cbn [r' r_home r_siz]. by destruct Hl as [-> _].
      * by rewrite insert_insert.
      * destruct Hs0 as (-> & _). done.
      * unfold mdel. rewrite Hx. destruct (r_home s) as [bs|] eqn:Hsh.
        -- rewrite lookup_delete_ne; [by eapply rep_inline_heap|]. unfold hp. by rewrite Hsh.
        -- unfold hp. rewrite Hsh. by rewrite lookup_delete.
      * done.
      * exact Hlr.
    + apply holds_full. lia.
    + done.
    + by intros [? ?].
Qed.
Lemma move_assign_self w ρ x r : Rep w ρ → ρ !! x = Some r → storage_move_assign x x w = Ok tt w.
Proof.
  intros H Hx. unfold storage_move_assign. rewrite decide_True by done.
  erewrite bind_ok by (by eapply get_str_eq, rep_obj). done.
Qed.

(** storage = std::move(tmp); } *)
Lemma commit_eq w ρ x t s q l : Rep w (<[t:=q]> ρ) → ρ !! t = None → ρ !! x = Some s → holds q l → cfg_ok →
  ∃ w' r', commit x t w = Ok tt w' ∧ same w w' ∧ Rep w' (<[x:=r']> ρ) ∧ holds r' l ∧
           r_home r' = r_home q ∧ (is_Some (r_home q) → r' = q).
Proof.
  intros H Ht Hx Hl Hcfg. assert (Hxt : x ≠ t) by congruence.
  edestruct (move_assign_eq w _ x t q s l H Hxt) as (w1 & r' & E1 & Hs1 & H1 & Hl1 & Hh & Hq); [..|done|].
  { by rewrite lookup_insert_ne. } { by rewrite lookup_insert. } { done. }
  edestruct (dtor_eq w1 _ t (moved_raw q) H1) as (w2 & E2 & Hs2 & H2). { by rewrite lookup_insert. }
  exists w2, r'. unfold commit. erewrite bind_ok by exact E1. split; [done|].
  split; [by eapply same_trans|]. split; [|done].
  rewrite delete_insert_delete in H2. rewrite delete_insert_ne in H2 by done.
  rewrite delete_insert in H2 by done. done.
Qed.

(** shrink_to_fit *)
Lemma shrink_eq w ρ x r l : Rep w ρ → ρ !! x = Some r → holds r l → cfg_ok →
  ∃ w' r', str_shrink_to_fit x w = Ok tt w' ∧ same w w' ∧ Rep w' (<[x:=r']> ρ) ∧ holds r' l ∧
           (length l ≤ sso_size → r_home r' = None) ∧ (sso_size < length l → r' = r) ∧ (r_home r = None → r' = r).
Proof.
  intros H Hx Hl Hcfg. pose proof (rep_obj _ _ _ _ H Hx) as Hox. pose proof (rep_cells _ _ _ _ H Hx) as Hmx.
  unfold str_shrink_to_fit, noexcept. erewrite bind_ok by by apply get_str_eq.
  destruct (r_home r) as [b|] eqn:Hb.
  2:{ assert (s_dealloc (conc r) = None) as -> by (unfold conc; by rewrite Hb). cbn [negb].
      exists w, r. unfold ret. rewrite insert_id by done. sp; try done. }
  assert (conc r = Str (Some (running b)) (UHeap b (cap r) (r_siz r))) as Hc by (unfold conc; by rewrite Hb). rewrite Hc in *.
  cbn [s_dealloc is_set negb]. unfold hp in Hmx. rewrite Hb in Hmx.
  pose proof (proj1 Hl) as Hsz.
  erewrite bind_ok by by eapply read_heap_eq. cbn [fst snd]. rewrite Hsz.
  destruct (Nat.ltb_spec sso_size (length l)) as [Hlt|Hge].
  { exists w, r. unfold ret. rewrite insert_id by done. sp; try done. lia. }
  pose proof (rep_len _ _ _ _ H Hx) as Hlen. pose proof (holds_cap _ _ Hl) as Hcap.
  assert (to_char (length l) = length l) as ->.
  { unfold to_char. apply Nat.mod_small. destruct Hcfg as (_ & _ & ? & _). lia. }
  erewrite bind_ok by by eapply write_sso_inactive.
  replace (length l + 1) with (length (l ++ [NUL])) by (rewrite app_length; done).
  erewrite bind_ok.
  2:{ eapply copy_n_eq.
      - cbn [mem with_mem]. rewrite lookup_insert_ne by done. exact Hmx.
      - intros k v Hk. rewrite Nat.add_0_l. by eapply holds_lookup_nul.
      - cbn [mem with_mem]. by rewrite lookup_insert.
      - rewrite replicate_length, app_length. cbn [length]. lia.
      - done. }
  erewrite bind_ok.
  2:{ unfold delete_char. cbn [mem mins with_mem]. rewrite lookup_insert_ne, lookup_insert_ne by done.
      rewrite Hmx, Nat.eqb_refl. reflexivity. }
  erewrite write_dealloc_eq.
  2:{ cbn [objs mins with_mem with_objs]. by rewrite lookup_insert. }
  set (r' := Raw None (length l) (write_at 0 (Some <$> (l ++ [NUL])) (replicate (sso_size + 1) None))).
  eexists _, r'. split; [reflexivity|]. split; [done|]. sp.
  - eapply Rep_upd; [exact H|..]; cbn [objs mem nextb with_mem with_objs mins hp r' r_home s_u r_cells].
    + rewrite insert_insert. done.
    + rewrite insert_insert. unfold mdel, hp. rewrite Hx, Hb. by rewrite delete_insert_ne.
    + done.
    + unfold mdel, hp. rewrite Hx, Hb. rewrite lookup_delete_ne by done. by eapply rep_inline_heap.
    + done.
    + unfold shape, r'. cbn [r_home r_cells]. rewrite write_at_length; [by rewrite replicate_length|].
      rewrite fmap_length, app_length, replicate_length. cbn [length]. lia.
  - apply holds_full. rewrite replicate_length. lia.
  - done.
  - lia.
  - done.
Qed.
End proofs.
