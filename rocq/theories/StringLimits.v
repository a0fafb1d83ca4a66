(** What happens to ptl::string at its limits: oversized requests, counts that overflow
    std::size_t, iterators that throw, and the cost of growing one character at a time. *)
From stdpp Require Import prelude gmap.
From Coq Require Import ZArith Lia.
From Verif Require Import Cpp StringModel StringSpec StringMem StringRep StringOps StringOps2 StringOps3
  StringHistory StringExtra.
Local Open Scope nat_scope.

Section proofs.
Context `{C : StrCfg} (Hcfg : cfg_ok).
Notation state := (gmap nat (list char)).
Notation raws := (gmap nat raw).
Notation bufid := (nat + nat)%type.
Notation buffer := (list (option char)).

Lemma bind_exn {A B} (p : M world A) (k : A → M world B) w e w' : p w = Exn e w' → bind p k w = Exn e w'.
Proof. unfold bind. by intros ->. Qed.
Lemma bind_stuck {A B} (p : M world A) (k : A → M world B) w f : p w = Stuck f → bind p k w = Stuck f.
Proof. unfold bind. by intros ->. Qed.

(** ** Oversized requests *)
Lemma wf_small w m x l : wf w m → m !! x = Some l → length l ≤ max_size.
Proof.
  intros Hw Hx. destruct (wf_get _ _ _ _ Hw Hx) as (ρ & s & HR & _ & Hs & Hl).
  pose proof (holds_cap _ _ Hl). pose proof (rep_cap Hcfg _ _ _ _ HR Hs). unfold max_size. lia.
Qed.
Lemma reserve_too_big w ρ x s n : Rep w ρ → ρ !! x = Some s → max_size < n → str_reserve x n w = Exn LengthError w.
Proof.
  intros HR Hx Hn. pose proof (rep_cap Hcfg _ _ _ _ HR Hx). unfold max_size in *.
  unfold str_reserve. erewrite bind_ok by by eapply str_capacity_eq.
  rewrite (proj2 (Nat.leb_gt _ _)) by lia. unfold max_size. by rewrite (proj2 (Nat.ltb_lt _ _)) by lia.
Qed.
Lemma resize_too_big w ρ x s n ch : Rep w ρ → ρ !! x = Some s → max_size < n → str_resize_fill x n ch w = Exn LengthError w.
Proof.
  intros HR Hx Hn. unfold str_resize_fill. erewrite bind_ok by by eapply str_size_eq.
  apply bind_exn. by eapply reserve_too_big.
Qed.

(** ** Counts that overflow *)
Lemma two_pow : (2 * Z.of_nat ptrdiff_max + 2 = 2 ^ Z.of_nat wbits)%Z.
Proof. apply ptrdiff_half. apply Hcfg. Qed.
Lemma wadd_over a b : ¬ countable (a + b) → a ≤ ptrdiff_max → countable b →
  wadd a b < a ∧ ptrdiff_max + 1 < b.
Proof.
  unfold countable. intros Hn Ha Hb. pose proof two_pow. unfold wadd.
  rewrite <-(Z_mod_plus_full _ (-1)). remember (2 ^ Z.of_nat wbits)%Z as W. rewrite Z.mod_small by lia. lia.
Qed.
Lemma set_size_oob w ρ x s n : Rep w ρ → ρ !! x = Some s → cap s < n → set_size x n w = Stuck OutOfBounds.
Proof.
  intros HR Hx Hn. pose proof (rep_obj _ _ _ _ HR Hx) as Ho. pose proof (rep_len _ _ _ _ HR Hx) as Hl.
  pose proof (rep_cells _ _ _ _ HR Hx) as Hm.
  unfold set_size. erewrite bind_ok by by apply get_str_eq. unfold conc, hp in *. destruct (r_home s) as [b|]; cbn [s_dealloc].
  - erewrite bind_ok by by eapply read_heap_eq. cbn [fst snd]. erewrite bind_ok by by eapply write_heap_eq.
    unfold wr. cbn [fst snd mem with_mem]. rewrite lookup_delete_ne by done. cbn [mem with_objs]. rewrite Hm.
    by rewrite (proj2 (Nat.ltb_ge _ _)) by lia.
  - erewrite bind_ok by by eapply write_sso_active. unfold wr. cbn [fst snd mem with_objs]. rewrite Hm.
    by rewrite (proj2 (Nat.ltb_ge _ _)) by lia.
Qed.
Lemma fill_n_oob n ch : ∀ w p c j, mem w !! p = Some c → length c < j + n → fill_n (p, j) n ch w = Stuck OutOfBounds ∨ n = 0.
Proof.
  induction n as [|n IH]; intros w p c j Hp Hlt; [by right|left]. cbn [fill_n].
  destruct (decide (j < length c)) as [Hj|Hj].
  - erewrite bind_ok by (apply wr_eq; [exact Hp|done]). unfold padd. cbn [fst snd].
    destruct (IH (mins p (<[j:=Some ch]> c) w) p (<[j:=Some ch]> c) (j + 1)) as [E| ->]; [..|done|lia].
    + rewrite mem_mins. by rewrite lookup_insert.
    + rewrite insert_length. lia.
  - apply bind_stuck. unfold wr. cbn [fst snd]. rewrite Hp. by rewrite (proj2 (Nat.ltb_ge _ _)) by lia.
Qed.
(** the initial part of a buffer is initialised *)
Definition init_to (c : buffer) (k : nat) : Prop := ∀ i, i < k → ∃ v, c !! i = Some (Some v).
Lemma init_insert c k i v : init_to c k → init_to (<[i:=Some v]> c) k.
Proof.
  intros H j Hj. destruct (H j Hj) as [u Hu]. destruct (decide (i = j)) as [->|].
  - exists v. apply list_lookup_insert. by eapply lookup_lt_Some.
  - exists u. by rewrite list_lookup_insert_ne.
Qed.
Lemma copy_backward_any n : ∀ w p c first d, mem w !! p = Some c → init_to c (first + n) → d ≤ length c →
  copy_backward (p, 0) first n d w = Stuck OutOfBounds ∨
  ∃ c', length c' = length c ∧ copy_backward (p, 0) first n d w = Ok tt (mins p c' w).
Proof.
  induction n as [|n IH]; intros w p c first d Hp Hi Hd; cbn [copy_backward].
  { right. exists c. split; [done|]. by rewrite mins_id. }
  destruct d as [|d]; [by left|]. unfold padd. cbn [fst snd]. rewrite !Nat.add_0_l.
  destruct (Hi (first + n)) as [v Hv]; [lia|].
  erewrite bind_ok by by eapply rd_eq. erewrite bind_ok by (apply wr_eq; [exact Hp|lia]).
  destruct (IH (mins p (<[d:=Some v]> c) w) p (<[d:=Some v]> c) first d) as [E|(c' & Hc & E)].
  - rewrite mem_mins. by rewrite lookup_insert.
  - apply init_insert. intros i Hlt. apply Hi. lia.
  - rewrite insert_length. lia.
  - by left.
  - right. exists c'. rewrite insert_length in Hc. split; [done|]. rewrite E. by rewrite mins_mins.
Qed.

Lemma shrinking_resize w ρ x s l k : Rep w ρ → ρ !! x = Some s → holds s l → k ≤ length l →
  ∃ w1 r, str_resize x k w = Ok tt w1 ∧ Rep w1 (<[x:=r]> ρ) ∧ r_siz r = k ∧ cap r = cap s ∧ init_to (r_cells r) (length l + 1).
Proof.
  intros HR Hx Hl Hk. pose proof (holds_cap _ _ Hl) as Hc. unfold str_resize, str_resize_fill.
  erewrite bind_ok by by eapply str_size_eq.
  assert (E : str_reserve x k w = Ok tt w).
  { unfold str_reserve. erewrite bind_ok by by eapply str_capacity_eq. by rewrite (proj2 (Nat.leb_le _ _)) by lia. }
  erewrite bind_ok by exact E.
  destruct (set_size_eq w ρ x s k Hcfg HR Hx) as (w1 & E1 & _ & H1); [lia|].
  erewrite bind_ok by exact E1. erewrite bind_ok by (eapply str_size_eq; [exact H1|apply lookup_insert]).
  cbn [r_siz]. rewrite (proj1 Hl), (proj2 (Nat.ltb_ge _ _)) by lia.
  do 2 eexists. sp; [done|exact H1|done|unfold cap; cbn [r_cells]; by rewrite insert_length|].
  cbn [r_cells]. apply init_insert. intros i Hi. destruct Hl as [_ [rest ->]].
  destruct (decide (i < length l)) as [Hlt|].
  - destruct (lookup_lt_is_Some_2 l i Hlt) as [v Hv]. exists v. rewrite lookup_app_l by (by rewrite fmap_length).
    by rewrite list_lookup_fmap, Hv.
  - assert (i = length l) as -> by lia. exists NUL. rewrite lookup_app_r by (by rewrite fmap_length).
    by rewrite fmap_length, Nat.sub_diag.
Qed.

Lemma append_overflow w ρ x s l n ch : Rep w ρ → ρ !! x = Some s → holds s l →
  ¬ countable (length l + n) → countable n → str_append_fill x n ch w = Stuck OutOfBounds.
Proof.
  intros HR Hx Hl Hc Hn. pose proof (holds_cap _ _ Hl) as Hcl. pose proof (rep_cap Hcfg _ _ _ _ HR Hx) as [_ Hcp].
  destruct (wadd_over (length l) n) as [Hw Hb]; [done|lia|done|].
  unfold str_append_fill, append_no_aliasing. erewrite bind_ok by by eapply str_size_eq. rewrite (proj1 Hl).
  destruct (shrinking_resize w ρ x s l (wadd (length l) n)) as (w1 & r & E & H1 & Hr & Hcr & _); [done..|lia|].
  erewrite bind_ok by exact E. unfold fill_count.
  pose proof (lookup_insert ρ x r) as Hx1. pose proof (rep_len _ _ _ _ H1 Hx1) as Hlen.
  erewrite bind_ok by by eapply str_data_eq. unfold padd. cbn [fst snd].
  destruct (fill_n_oob n ch w1 (hp x r) (r_cells r) (0 + length l)) as [E'| ->]; [by eapply rep_cells|lia|done|lia].
Qed.
Lemma gap_overflow {A} w ρ x s l i j k n ch (a : A) : Rep w ρ → ρ !! x = Some s → holds s l → i ≤ j ≤ length l →
  wadd (length l) k < length l → ptrdiff_max < n →
  (old <- str_size x ;; str_resize x (wadd old k) ;;;
   d <- str_data x ;; n' <- str_size x ;;
   copy_backward d j (old - j) n' ;;; fill_count x n ch i ;;; ret a) w = Stuck OutOfBounds.
Proof.
  intros HR Hx Hl Hij Hw Hb. pose proof (rep_cap Hcfg _ _ _ _ HR Hx) as [_ Hcp]. pose proof (holds_cap _ _ Hl) as Hcl.
  erewrite bind_ok by by eapply str_size_eq. rewrite (proj1 Hl).
  destruct (shrinking_resize w ρ x s l (wadd (length l) k)) as (w1 & r & E & H1 & Hr & Hcr & Hi); [done..|lia|].
  erewrite bind_ok by exact E.
  pose proof (lookup_insert ρ x r) as Hx1. pose proof (rep_len _ _ _ _ H1 Hx1) as Hlen.
  erewrite bind_ok by by eapply str_data_eq. erewrite bind_ok by by eapply str_size_eq. rewrite Hr.
  destruct (copy_backward_any (length l - j) w1 (hp x r) (r_cells r) j (wadd (length l) k)) as [E2|(c' & Hc' & E2)].
  - by eapply rep_cells.
  - intros i' Hi'. apply Hi. lia.
  - lia.
  - by apply bind_stuck.
  - erewrite bind_ok by exact E2. apply bind_stuck. unfold fill_count.
    assert (H2 : Rep (mins (hp x r) c' w1) (<[x:=Raw (r_home r) (r_siz r) c']> ρ)).
    { rewrite <-(insert_insert ρ x _ r). by apply Rep_write. }
    erewrite bind_ok by (eapply str_data_eq; [exact H2|apply lookup_insert]).
    unfold padd. cbn [fst snd].
    destruct (fill_n_oob n ch (mins (hp x r) c' w1) (hp x r) c' (0 + i)) as [E'| ->]; [|lia|done|lia].
    rewrite mem_mins. by rewrite lookup_insert.
Qed.
Lemma insert_overflow w ρ x s l i n ch : Rep w ρ → ρ !! x = Some s → holds s l → i ≤ length l →
  ¬ countable (length l + n) → countable n → str_insert_fill x i n ch w = Stuck OutOfBounds.
Proof.
  intros HR Hx Hl Hi Hc Hn. pose proof (holds_cap _ _ Hl) as Hcl. pose proof (rep_cap Hcfg _ _ _ _ HR Hx) as [_ Hcp].
  destruct (wadd_over (length l) n) as [Hw Hb]; [done|lia|done|].
  eapply (gap_overflow w ρ x s l i i n n ch i); try done; lia.
Qed.
Lemma replace_overflow w ρ x s l i j n ch : Rep w ρ → ρ !! x = Some s → holds s l → i ≤ j ≤ length l →
  ¬ countable (length l - (j - i) + n) → countable n → str_replace_fill x i j n ch w = Stuck OutOfBounds.
Proof.
  intros HR Hx Hl Hij Hc Hn. pose proof (holds_cap _ _ Hl) as Hcl. pose proof (rep_cap Hcfg _ _ _ _ HR Hx) as [_ Hcp].
  assert (Hlt : j - i < n).
  { pose proof two_pow. unfold countable in *. lia. }
  destruct (wadd_over (length l) (n - (j - i))) as [Hw Hb]; [|lia|unfold countable in *; lia|].
  { replace (length l + (n - (j - i))) with (length l - (j - i) + n) by lia. done. }
  unfold str_replace_fill, replace_no_aliasing. rewrite (proj2 (Nat.ltb_lt _ _)) by done.
  replace (i + (j - i)) with j by lia.
  pose proof (gap_overflow w ρ x s l i j (n - (j - i)) n ch tt HR Hx Hl Hij Hw ltac:(lia)) as E.
  etrans; [|exact E]. unfold bind.
  repeat match goal with |- context [match ?t with Ok _ _ => _ | _ => _ end] => destruct t; try done end.
  repeat match goal with a : () |- _ => destruct a end. done.
Qed.

(** string(count, ch) *)
Lemma heap_cap_min n : sso_size < n → n ≤ 2 * footprint → heap_cap n = 2 * footprint.
Proof.
  intros H1 H2. pose proof two_pow as Htp. destruct Hcfg as (Hp & _ & _ & Hw & Hmax).
  unfold heap_cap, sso_size, footprint in *. rewrite wadd_small by lia.
  assert ((n + (3 * psz - 1)) `div` (3 * psz) ≤ 2); [|lia].
  assert ((n + (3 * psz - 1)) `div` (3 * psz) < 3); [|lia].
  apply Nat.div_lt_upper_bound; lia.
Qed.
Lemma heap_cap_wraps n : countable n → ¬ roomy n → heap_cap n = 2 * footprint.
Proof.
  intros Hn Hr. destruct Hcfg as (Hp & _ & _ & Hw & Hmax). pose proof two_pow as Htp.
  unfold heap_cap, countable, roomy, footprint in *.
  assert (wadd n (3 * psz - 1) < 3 * psz) as Hlt.
  { unfold wadd. rewrite <-(Z_mod_plus_full _ (-1)). remember (2 ^ Z.of_nat wbits)%Z as W. rewrite Z.mod_small by lia. lia. }
  by rewrite Nat.div_small by lia.
Qed.
Lemma new_fill_overflow w ρ x n ch : Rep w ρ → ρ !! x = None → countable n → ¬ roomy n →
  (∀ k, alloc_fails k = false) → str_new_fill x n ch w = Stuck OutOfBounds.
Proof.
  intros HR Hx Hn Hr Ha. pose proof two_pow as Htp.
  assert (Hcf := Hcfg). destruct Hcf as (Hp & _ & _ & Hw & Hmax).
  assert (Hbig : ptrdiff_max + 1 < n).
  { unfold countable, roomy, footprint in *. lia. }
  unfold str_new_fill, construct_str. destruct (default_eq w ρ x HR Hx) as (w0 & E0 & _ & H0).
  erewrite bind_ok by exact E0. unfold on_exn.
  assert (E : ∀ t w, storage_new t n w = storage_new t (sso_size + 1) w).
  { intros t w'. unfold storage_new. rewrite heap_cap_wraps by done.
    rewrite heap_cap_min by (unfold sso_size, footprint in *; lia).
    rewrite !(proj2 (Nat.ltb_lt _ _)) by (unfold sso_size, footprint in *; lia). done. }
  assert (Es : storage_assign x n w0 = storage_assign x (sso_size + 1) w0).
  { unfold storage_assign, bind. destruct (temp_name w0); try done. by rewrite E. }
  pose proof (storage_assign_run Hcfg w0 (<[x:=raw0]> ρ) x raw0 (sso_size + 1) H0 (lookup_insert _ _ _)) as Hrun.
  assert (Hro : roomy (sso_size + 1)) by (apply (small_roomy Hcfg); unfold sso_size, footprint in *; lia).
  specialize (Hrun Hro). unfold run_to in Hrun.
  unfold bind at 1. rewrite Es. destruct (storage_assign x (sso_size + 1) w0) as [[] w1|e w1|f|]; try done.
  - destruct Hrun as (r & H1 & _ & _ & _). pose proof (lookup_insert (<[x:=raw0]> ρ) x r) as Hx1.
    pose proof (rep_cap Hcfg _ _ _ _ H1 Hx1) as [_ Hc].
    erewrite bind_stuck; [done|]. eapply set_size_oob; [exact H1|exact Hx1|lia].
  - exfalso. destruct Hrun as (_ & _ & He). destruct e; try done; cbn [excuse] in He.
    + unfold max_size, sso_size, footprint in *. lia.
    + destruct He as [(k & _ & Hk)|?]; [by rewrite Ha in Hk|unfold sso_size, footprint in *; lia].
Qed.

(** ** Forward iterators that throw *)
Lemma copy_loop_throws from (cs : list char) : ∀ w p c j k0 n,
  mem w !! p = Some c → j + k0 + length cs ≤ length c → length cs < n →
  (∀ k v, cs !! k = Some v → from (k0 + k) = CVal (Some v)) → from (k0 + length cs) = CVal None →
  copy_loop from (p, j) k0 n w = Exn ElementThrow (mins p (write_at (j + k0) (Some <$> cs) c) w).
Proof.
  induction cs as [|v cs IH]; intros w p c j k0 n Hp Hl Hn Hf Ht; (destruct n as [|n]; [cbn [length] in *; lia|]); cbn [copy_loop].
  - cbn [length] in Ht. rewrite Nat.add_0_r in Ht. rewrite Ht. cbn [rd_src fmap list_fmap]. rewrite write_at_nil, mins_id by done. done.
  - cbn [length] in *. pose proof (Hf 0 v eq_refl) as H0. rewrite Nat.add_0_r in H0. rewrite H0. cbn [rd_src].
    erewrite bind_ok by done. unfold padd. cbn [fst snd]. erewrite bind_ok by (apply wr_eq; [exact Hp|lia]).
    erewrite (IH _ p (<[j + k0:=Some v]> c)).
    + rewrite mins_mins. do 2 f_equal. replace (j + S k0) with (S (j + k0)) by lia. rewrite fmap_cons. apply write_at_cons. lia.
    + rewrite mem_mins. by rewrite lookup_insert.
    + rewrite insert_length. lia.
    + lia.
    + intros k u Hk. replace (S k0 + k) with (k0 + S k) by lia. by apply Hf.
    + by replace (S k0 + length cs) with (k0 + S (length cs)) by lia.
Qed.
Lemma append_throwing w ρ x s l cs c0 rest : Rep w ρ → ρ !! x = Some s → holds s l → head cs = Some c0 →
  length l + length ((Some <$> cs) ++ None :: rest) ≤ cap s →
  ∃ w', str_append_range x (RExt ((Some <$> cs) ++ None :: rest)) w = Exn ElementThrow w' ∧
    str_size x w' = Ok (length l) w' ∧ str_c_str x (length l) w' = Ok c0 w'.
Proof.
  intros HR Hx Hl Hc0 Hfit. pose proof (rep_cap Hcfg _ _ _ _ HR Hx) as [_ Hcp]. pose proof (rep_len _ _ _ _ HR Hx) as Hlen.
  unfold str_append_range, bind_range. erewrite bind_ok by done. cbn [fst snd].
  erewrite bind_ok by by eapply str_size_eq. erewrite bind_ok by by eapply str_capacity_eq. rewrite (proj1 Hl).
  rewrite (small_wadd Hcfg) by lia. rewrite (proj2 (Nat.leb_le _ _)) by lia.
  erewrite bind_ok by by eapply str_data_eq. unfold padd at 1. cbn [fst snd]. rewrite Nat.add_0_l.
  rewrite app_length, fmap_length in Hfit. cbn [length] in Hfit.
  eexists. split.
  { apply bind_exn. unfold copy_from. eapply (copy_loop_throws _ cs w (hp x s) (r_cells s) (length l) 0).
    - by eapply rep_cells.
    - lia.
    - rewrite app_length, fmap_length. cbn [length]. lia.
    - intros k v Hk. cbn beta. rewrite Nat.add_0_l. rewrite lookup_app_l by (rewrite fmap_length; by eapply lookup_lt_Some).
      by rewrite list_lookup_fmap, Hk.
    - cbn beta. rewrite Nat.add_0_l, lookup_app_r by (by rewrite fmap_length). by rewrite fmap_length, Nat.sub_diag. }
  rewrite Nat.add_0_r. set (c' := write_at (length l) (Some <$> cs) (r_cells s)).
  assert (Hc' : length c' = length (r_cells s)).
  { apply write_at_length. rewrite fmap_length. lia. }
  pose proof (Rep_write w ρ x s c' HR Hx Hc') as H1. pose proof (lookup_insert ρ x (Raw (r_home s) (r_siz s) c')) as Hx1.
  split.
  - rewrite (str_size_eq _ _ _ _ H1 Hx1). cbn [r_siz]. by rewrite (proj1 Hl).
  - unfold str_c_str, str_index. erewrite bind_ok by by eapply str_data_eq. unfold padd. cbn [fst snd]. rewrite Nat.add_0_l.
    eapply rd_cell; [exact H1|exact Hx1|]. cbn [r_cells]. unfold c', write_at.
    rewrite lookup_app_r by (rewrite take_length; lia). rewrite take_length, Nat.min_l by lia. rewrite Nat.sub_diag.
    destruct cs as [|c1 cs]; [done|]. cbn in Hc0. injection Hc0 as ->. done.
Qed.

(** ** Growing one character at a time *)
Lemma heap_cap_first : heap_cap (S sso_size) = 2 * footprint.
Proof. destruct Hcfg as (Hp & _). apply heap_cap_min; unfold sso_size, footprint; lia. Qed.
Lemma heap_cap_next j : 2 ≤ j → roomy (S (j * footprint)) → heap_cap (S (j * footprint)) = S j * footprint.
Proof.
  intros Hj Hr. destruct Hcfg as (Hp & _ & _ & Hw & Hmax). unfold heap_cap.
  assert (1 ≤ footprint) as Hf by (unfold footprint; lia).
  rewrite wadd_small by (unfold roomy in Hr; lia).
  replace (S (j * footprint) + (footprint - 1)) with (S j * footprint) by lia.
  rewrite Nat.div_mul by lia. rewrite Nat.max_r by lia. done.
Qed.
(** [t] characters were copied while an inline string grew to [l] in [s] *)
Definition grew (s : raw) (l : list char) (t : nat) : Prop :=
  match r_home s with
  | None => True
  | Some _ => ∃ j, 2 ≤ j ∧ cap s = j * footprint ∧ footprint * ((j - 1) * j) ≤ 2 * t + 4
  end.
Lemma push_grew w ρ x s l ch t : Rep w ρ → ρ !! x = Some s → holds s l → grew s l t →
  (∀ k, alloc_fails k = false) → S (length l) + footprint ≤ ptrdiff_max →
  ∃ w' s' t', str_push_back x ch w = Ok tt w' ∧ Rep w' (<[x:=s']> ρ) ∧ holds s' (l ++ [ch]) ∧ grew s' (l ++ [ch]) (t + t') ∧
    ncopied w' = ncopied w + t'.
Proof.
  intros HR Hx Hl Hg Ha Hfit. pose proof (push_back_run Hcfg w ρ x s l ch HR Hx Hl) as Hrun. unfold run_to in Hrun.
  pose proof (holds_cap _ _ Hl) as Hcl. destruct Hcfg as (Hp & _ & _ & Hw & Hmax).
  destruct (str_push_back x ch w) as [[] w'|e w'|f|]; try done.
  - destruct Hrun as [(s' & H1 & Hl1 & Hlt & Hk) Hgrow].
    destruct (decide (cap s = length l)) as [E|Hne].
    + destruct (Hgrow E) as [Hc (r & Hr & Hcr)].
      assert (Hcap : cap s' = heap_cap (S (length l))).
      { pose proof (str_capacity_eq _ _ x _ H1 (lookup_insert _ _ _)) as E1.
        pose proof (str_capacity_eq _ _ x _ Hr (lookup_insert _ _ _)) as E2. rewrite E1 in E2. injection E2 as ->. done. }
      exists w', s', (length l). sp; try done. unfold grew in *.
      pose proof (rep_shape _ _ HR _ _ Hx) as Hsh. unfold shape in Hsh.
      destruct (r_home s') as [b'|]; [|done].
      destruct (r_home s) as [b|].
      * destruct Hg as (j & Hj & Hcj & Hb). exists (S j).
        rewrite Hcap, <-E, Hcj. rewrite heap_cap_next; [|done|].
        2:{ apply small_roomy; [done|]. rewrite <-Hcj, E. lia. }
        sp; [lia|done|].
        destruct j as [|j]; [lia|]. replace (S (S j) - 1) with (S j) by lia. replace (S j - 1) with j in Hb by lia. nia.
      * exists 2. assert (cap s = sso_size) as Hcs by (unfold cap; lia).
        rewrite Hcap, <-E, Hcs. rewrite heap_cap_first. sp; [lia|done|].
        unfold sso_size, footprint in *. lia.
    + destruct Hk as [[Hh Hc] Hs]; [lia|]. exists w', s', 0. sp; try done; [|destruct Hs as (_ & _ & ->); lia].
      unfold grew in *. rewrite Hh, Hc. destruct (r_home s); [|done]. by rewrite Nat.add_0_r.
  - exfalso. destruct Hrun as (_ & _ & _ & He). destruct e; try done; cbn [excuse] in He.
    + unfold max_size, footprint in *. lia.
    + destruct He as [(k & _ & Hk)|?]; [by rewrite Ha in Hk|lia].
Qed.
Lemma pushes_grew x (cs : list char) : ∀ w ρ s l t, Rep w ρ → ρ !! x = Some s → holds s l → grew s l t →
  (∀ k, alloc_fails k = false) → length l + length cs + footprint ≤ ptrdiff_max →
  ∃ w' s' t', srun (SPushBack x <$> cs) w = Finished (replicate (length cs) OUnit) w' ∧
    Rep w' (<[x:=s']> ρ) ∧ holds s' (l ++ cs) ∧ grew s' (l ++ cs) (t + t') ∧ ncopied w' = ncopied w + t'.
Proof.
  induction cs as [|ch cs IH]; intros w ρ s l t HR Hx Hl Hg Ha Hfit.
  { exists w, s, 0. rewrite insert_id, app_nil_r, !Nat.add_0_r by done. done. }
  cbn [length] in Hfit. rewrite fmap_cons.
  destruct (push_grew w ρ x s l ch t HR Hx Hl Hg Ha) as (w1 & s1 & t1 & E & H1 & Hl1 & Hg1 & Hn1); [lia|].
  destruct (IH w1 _ s1 _ _ H1 (lookup_insert _ _ _) Hl1 Hg1 Ha) as (w' & s' & t' & E' & H' & Hl' & Hg' & Hn').
  { rewrite app_length. cbn [length]. lia. }
  exists w', s', (t1 + t'). rewrite srun_step. cbn [sexec]. unfold obs_unit. erewrite bind_ok by exact E. unfold ret. rewrite E'.
  rewrite insert_insert, <-app_assoc in *. rewrite Nat.add_assoc. sp; try done. lia.
Qed.
Lemma pushes_quadratic w ρ x s cs : Rep w ρ → ρ !! x = Some s → holds s [] → r_home s = None →
  (∀ k, alloc_fails k = false) → length cs + footprint ≤ ptrdiff_max →
  ∃ w', srun (SPushBack x <$> cs) w = Finished (replicate (length cs) OUnit) w' ∧
    length cs * length cs ≤ 2 * footprint * (ncopied w' - ncopied w) + footprint * length cs + 4 * footprint.
Proof.
  intros HR Hx Hl Hh Ha Hfit.
  destruct (pushes_grew x cs w ρ s [] 0 HR Hx Hl) as (w' & s' & t & E & H' & Hl' & Hg & Hn); try done.
  { unfold grew. by rewrite Hh. }
  exists w'. split; [done|]. rewrite Hn. replace (ncopied w + t - ncopied w) with t by lia. cbn [app] in *.
  pose proof (holds_cap _ _ Hl') as Hcl. pose proof (rep_shape _ _ H' _ _ (lookup_insert _ _ _)) as Hsh.
  unfold grew, shape in *. rewrite Nat.add_0_l in Hg. destruct (r_home s') as [b|].
  - destruct Hg as (j & Hj & Hcj & Hb). rewrite Hcj in Hcl. clear -Hj Hcl Hb.
    generalize dependent (length cs). intros n Hn. generalize dependent footprint. intros F Hb Hn.
    assert (n * n ≤ n * (j * F)) by nia. destruct j as [|j]; [lia|]. replace (S j - 1) with j in Hb by lia.
    assert (n * (j * F) ≤ F * (F * (j * S j))) by nia. nia.
  - assert (cap s' + 2 = footprint) as Hcs. { unfold cap. rewrite Hsh. destruct Hcfg. unfold sso_size, footprint. lia. }
    nia.
Qed.
End proofs.
