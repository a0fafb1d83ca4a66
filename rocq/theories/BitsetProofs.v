(** Proofs about the bitset model: every operation on bytes simulates the
    operation on booleans. *)
From stdpp Require Import prelude gmap.
From Coq Require Import ZArith Ascii Lia.
From Verif Require Import Cpp BitsetModel BitsetSpec.
Local Open Scope nat_scope.

(** * Bytes *)
Definition byte (v : Z) : Prop := (0 ≤ v < 256)%Z.

Lemma uc_byte x : byte (uc x).
Proof. unfold byte, uc. apply Z.mod_pos_bound. lia. Qed.

Lemma uc_testbit x (n : nat) : n < 8 → Z.testbit (uc x) (Z.of_nat n) = Z.testbit x (Z.of_nat n).
Proof. intros. unfold uc. change 256%Z with (2 ^ 8)%Z. apply Z.mod_pow2_bits_low. lia. Qed.

Lemma byte_high v n : byte v → (8 ≤ n)%Z → Z.testbit v n = false.
Proof.
  intros [H1 H2] Hn. destruct (decide (v = 0)%Z) as [->|]; [apply Z.testbit_0_l|].
  apply Z.bits_above_log2; [lia|].
  enough (Z.log2 v < 8)%Z by lia. apply Z.log2_lt_pow2; lia.
Qed.

Lemma byte_ext a b : byte a → byte b →
  (∀ n : nat, n < 8 → Z.testbit a (Z.of_nat n) = Z.testbit b (Z.of_nat n)) → a = b.
Proof.
  intros Ha Hb H. apply Z.bits_inj'. intros n Hn.
  destruct (decide (n < 8)%Z).
  - replace n with (Z.of_nat (Z.to_nat n)) by lia. apply H. lia.
  - rewrite !byte_high; [done|done|lia|done|lia].
Qed.

(** * Bits of a byte array *)
Definition bit (b : bitset) (i : nat) : bool :=
  Z.testbit (nth (i `div` 8) b 0%Z) (Z.of_nat (i `mod` 8)).

Definition bytes (b : bitset) : Prop := Forall byte b.

Lemma div8 i : i = 8 * (i `div` 8) + i `mod` 8 ∧ i `mod` 8 < 8.
Proof. split; [apply Nat.div_mod; lia|apply Nat.mod_upper_bound; lia]. Qed.

Lemma div8_eq k r : r < 8 → (8 * k + r) `div` 8 = k.
Proof.
  intros. symmetry. apply (Nat.div_unique _ 8 k r); lia.
Qed.
Lemma mod8_eq k r : r < 8 → (8 * k + r) `mod` 8 = r.
Proof.
  intros. symmetry. apply (Nat.mod_unique _ 8 k r); lia.
Qed.
Lemma div8_lt i n : i < 8 * n → i `div` 8 < n.
Proof. intros. destruct (div8 i). lia. Qed.
Lemma div8_ge i n : 8 * n ≤ i → n ≤ i `div` 8.
Proof. intros. destruct (div8 i). lia. Qed.

Lemma bit_out b i : 8 * length b ≤ i → bit b i = false.
Proof.
  intros. unfold bit. rewrite nth_overflow; [apply Z.testbit_0_l|]. by apply div8_ge.
Qed.

Lemma nth_lookup_Z (b : list Z) i v : b !! i = Some v → nth i b 0%Z = v.
Proof. intros H. rewrite nth_lookup, H. done. Qed.

Lemma bit_at b k r v : b !! k = Some v → r < 8 → bit b (8 * k + r) = Z.testbit v (Z.of_nat r).
Proof. intros H Hr. unfold bit. rewrite div8_eq, mod8_eq by done. by rewrite (nth_lookup_Z _ _ _ H). Qed.

Lemma bit_insert b k v i : k < length b →
  bit (<[k:=v]> b) i = if decide (i `div` 8 = k) then Z.testbit v (Z.of_nat (i `mod` 8)) else bit b i.
Proof.
  intros Hk. unfold bit. rewrite !nth_lookup. case_decide as E.
  - rewrite E, list_lookup_insert by done. done.
  - by rewrite list_lookup_insert_ne by done.
Qed.

Lemma bytes_lookup b k v : bytes b → b !! k = Some v → byte v.
Proof. intros H ?. by eapply Forall_lookup_1. Qed.

Lemma bytes_insert b k v : bytes b → byte v → bytes (<[k:=v]> b).
Proof. intros. by apply Forall_insert. Qed.

Lemma bytes_ext a b : length a = length b → bytes a → bytes b →
  (∀ i, i < 8 * length a → bit a i = bit b i) → a = b.
Proof.
  intros Hl Ha Hb H. apply list_eq_same_length with (length a); [done|done|].
  intros k x y Hk Hx Hy. apply byte_ext; [eapply (bytes_lookup a); done|eapply (bytes_lookup b); done|].
  intros n Hn. rewrite <-(bit_at a k n x), <-(bit_at b k n y) by done. apply H. lia.
Qed.

(** * Representation *)
Record rep (Size : nat) (b : bitset) (l : bits) : Prop := {
  rep_bits : length l = Size;
  rep_len : length b = storage_size Size;
  rep_bytes : bytes b;
  rep_bit : ∀ i, bit b i = sbit l i;
}.

Definition pad_zero (Size : nat) (b : bitset) : Prop := ∀ i, Size ≤ i → bit b i = false.

Lemma sbit_out l i : length l ≤ i → sbit l i = false.
Proof. apply nth_overflow. Qed.
Lemma sbit_lookup l i : sbit l i = default false (l !! i).
Proof. apply nth_lookup. Qed.

Lemma sbit_ext l1 l2 : length l1 = length l2 → (∀ i, i < length l1 → sbit l1 i = sbit l2 i) → l1 = l2.
Proof.
  intros Hl H. apply list_eq_same_length with (length l1); [done|done|].
  intros i x y Hi Hx Hy. specialize (H i Hi). rewrite !sbit_lookup in H. by rewrite Hx, Hy in H.
Qed.

Lemma storage_size_cover Size : Size ≤ 8 * storage_size Size.
Proof.
  unfold storage_size. destruct Size; [lia|]. destruct (div8 (S Size)).
  destruct (Nat.eqb_spec (S Size `mod` 8) 0); lia.
Qed.
Lemma storage_size_pos Size : 0 < storage_size Size.
Proof. pose proof (storage_size_cover Size). destruct Size; [cbn; lia|lia]. Qed.

(** where the last byte begins, and how many bits of it are used *)
Lemma last_byte Size : Size ≠ 0 →
  8 * (storage_size Size - 1) < Size ∧
  (Size `mod` 8 = 0 ∧ Size = 8 * storage_size Size ∨
   Size `mod` 8 ≠ 0 ∧ Size = 8 * (storage_size Size - 1) + Size `mod` 8).
Proof.
  intros. destruct (div8 Size). destruct Size; [done|]. cbn [storage_size].
  destruct (Nat.eqb_spec (S Size `mod` 8) 0); lia.
Qed.

Lemma mask_testbit Size (r : nat) : r < 8 →
  Z.testbit (trailing_mask Size) (Z.of_nat r) = ((Size `mod` 8 =? 0) || (r <? Size `mod` 8)).
Proof.
  intros Hr. unfold trailing_mask. destruct (div8 Size) as [_ Hm].
  remember (Size `mod` 8) as k. clear Heqk.
  do 8 (destruct k as [|k]; [do 8 (destruct r as [|r]; [reflexivity|]); lia|]). lia.
Qed.

Lemma mask_byte Size : byte (trailing_mask Size).
Proof.
  unfold trailing_mask. destruct (div8 Size) as [_ Hm].
  remember (Size `mod` 8) as k. clear Heqk. unfold byte.
  do 8 (destruct k as [|k]; [cbn; lia|]). lia.
Qed.

Lemma rep_shows Size b l : rep Size b l → shows Size b l.
Proof.
  intros [H1 H2 H3 H4]. split; [done|]. intros i Hi. unfold bs_index.
  destruct (Nat.eqb_spec Size 0); [lia|].
  pose proof (storage_size_cover Size).
  destruct (lookup_lt_is_Some_2 b (i `div` 8)) as [v Hv]; [apply div8_lt; lia|].
  unfold bind, rd. rewrite Hv. unfold ret. f_equal.
  rewrite <-H4. unfold bit. rewrite (nth_lookup_Z _ _ _ Hv).
  rewrite Z.shiftl_1_l. destruct (Z.testbit v (Z.of_nat (i `mod` 8))) eqn:E.
  - apply negb_true_iff, Z.eqb_neq. intros E0.
    assert (Z.testbit (Z.land v (2 ^ Z.of_nat (i `mod` 8))) (Z.of_nat (i `mod` 8)) = true) as E1.
    { rewrite Z.land_spec, E, Z.pow2_bits_true by lia. done. }
    rewrite E0, Z.testbit_0_l in E1. done.
  - apply negb_false_iff, Z.eqb_eq. apply Z.bits_inj'. intros q Hq.
    rewrite Z.land_spec, Z.testbit_0_l, Z.pow2_bits_eqb by lia.
    destruct (Z.eqb_spec (Z.of_nat (i `mod` 8)) q) as [<-|]; [by rewrite E|apply andb_false_r].
Qed.

Lemma shows_unique Size b l1 l2 : shows Size b l1 → shows Size b l2 → l1 = l2.
Proof.
  intros [? H1] [? H2]. apply sbit_ext; [congruence|]. intros i Hi.
  specialize (H1 i ltac:(lia)). specialize (H2 i ltac:(lia)). congruence.
Qed.

Lemma rep_of Size b : length b = storage_size Size → bytes b → pad_zero Size b →
  rep Size b ((λ i, bit b i) <$> seq 0 Size).
Proof.
  intros H1 H2 H3. split; [by rewrite fmap_length, seq_length|done|done|].
  intros i. rewrite sbit_lookup, list_lookup_fmap. destruct (decide (i < Size)).
  - by rewrite lookup_seq_lt by done.
  - rewrite lookup_seq_ge by lia. cbn. apply H3. lia.
Qed.

Lemma rep_inj Size b1 b2 l : rep Size b1 l → rep Size b2 l → b1 = b2.
Proof.
  intros [] []. apply bytes_ext; [congruence|done|done|]. intros; congruence.
Qed.

Lemma rep_fun Size b l1 l2 : rep Size b l1 → rep Size b l2 → l1 = l2.
Proof.
  intros [] []. apply sbit_ext; [congruence|]. intros; congruence.
Qed.

(** * Single operations *)

(** [does m b Q]: m returns normally without touching anything forbidden. *)
Definition does {A} (m : M bitset A) (b : bitset) (a : A) (b' : bitset) : Prop := m b = Ok a b'.

Lemma rd_ok b k : k < length b → ∃ v, b !! k = Some v ∧ rd k b = Ok v b.
Proof. intros H. destruct (lookup_lt_is_Some_2 b k H) as [v Hv]. exists v. unfold rd. by rewrite Hv. Qed.
Lemma rd_eq b k v : b !! k = Some v → rd k b = Ok v b.
Proof. intros H. unfold rd. by rewrite H. Qed.
Lemma wr_eq b k v : k < length b → wr k v b = Ok tt (<[k:=v]> b).
Proof. intros H. unfold wr. destruct (lookup_lt_is_Some_2 b k H) as [u Hu]. by rewrite Hu. Qed.

Lemma default_rep Size : rep Size (bs_default Size) (replicate Size false).
Proof.
  split; [apply replicate_length|apply replicate_length| |].
  - apply Forall_replicate. unfold byte; lia.
  - intros i. unfold bs_default, bit. rewrite nth_lookup.
    destruct (decide (i `div` 8 < storage_size Size)).
    + rewrite lookup_replicate_2 by done. cbn. rewrite Z.testbit_0_l.
      rewrite sbit_lookup. destruct (replicate Size false !! i) eqn:E; [|done].
      apply lookup_replicate_1 in E as [-> _]. done.
    + rewrite lookup_ge_None_2 by (rewrite replicate_length; lia). cbn. rewrite Z.testbit_0_l.
      rewrite sbit_lookup. destruct (replicate Size false !! i) eqn:E; [|done].
      apply lookup_replicate_1 in E as [-> _]. done.
Qed.

(** clear_trailing_bits *)
Lemma clear_spec Size b : Size ≠ 0 → length b = storage_size Size → bytes b →
  ∃ b', clear_trailing_bits Size b = Ok tt b' ∧ length b' = storage_size Size ∧ bytes b' ∧
        ∀ i, bit b' i = (bit b i && (i <? Size)).
Proof.
  intros HS Hl Hb. unfold clear_trailing_bits. remember (storage_size Size - 1) as k eqn:Hk.
  pose proof (storage_size_pos Size).
  destruct (rd_ok b k) as (v & Hv & Hrd); [lia|]. unfold bind. rewrite Hrd, wr_eq by lia.
  eexists; split_and!; [done|by rewrite insert_length|apply bytes_insert; [done|apply uc_byte]|].
  intros i. rewrite bit_insert by lia. pose proof (last_byte Size HS) as [HL HC].
  destruct (div8 i) as [Hi Hr]. case_decide as E.
  - rewrite uc_testbit, Z.land_spec, mask_testbit by done.
    unfold bit. rewrite E, (nth_lookup_Z _ _ _ Hv). f_equal.
    destruct (Nat.eqb_spec (Size `mod` 8) 0); [rewrite orb_true_l|rewrite orb_false_l].
    + symmetry. apply Nat.ltb_lt. lia.
    + destruct (Nat.ltb_spec (i `mod` 8) (Size `mod` 8)), (Nat.ltb_spec i Size); first [done|exfalso; lia].
  - destruct (Nat.ltb_spec i Size); [by rewrite andb_true_r|]. rewrite andb_false_r.
    apply bit_out. lia.
Qed.

Lemma sbit_fmap f l i : sbit (f <$> l) i = if decide (i < length l) then f (sbit l i) else false.
Proof.
  rewrite !sbit_lookup, list_lookup_fmap. case_decide.
  - destruct (lookup_lt_is_Some_2 l i) as [x Hx]; [done|]. by rewrite Hx.
  - by rewrite lookup_ge_None_2 by lia.
Qed.

Lemma sbit_insert l j v i : j < length l → sbit (<[j:=v]> l) i = if decide (i = j) then v else sbit l i.
Proof.
  intros. rewrite !sbit_lookup. case_decide.
  - subst. by rewrite list_lookup_insert.
  - by rewrite list_lookup_insert_ne.
Qed.

Lemma bit_fmap (f : Z → Z) b i :
  i < 8 * length b → bit (f <$> b) i = Z.testbit (f (nth (i `div` 8) b 0%Z)) (Z.of_nat (i `mod` 8)).
Proof.
  intros H. unfold bit. rewrite !nth_lookup, list_lookup_fmap.
  destruct (lookup_lt_is_Some_2 b (i `div` 8)) as [x Hx]; [by apply div8_lt|]. by rewrite Hx.
Qed.

Lemma set_all_rep Size b l : rep Size b l →
  ∃ b', bs_set_all Size b = Ok tt b' ∧ rep Size b' ((λ _, true) <$> l).
Proof.
  intros [H1 H2 H3 H4]. unfold bs_set_all. destruct (Nat.eqb_spec Size 0).
  - exists b. split; [done|]. destruct l; [|cbn in *; lia]. by split.
  - unfold bind, modify. set (b1 := (λ _, 255%Z) <$> b).
    destruct (clear_spec Size b1) as (b' & E & ? & ? & Hb); [done|by unfold b1; rewrite fmap_length| |].
    { apply Forall_fmap, Forall_true. intros. cbn. unfold byte; lia. }
    exists b'. split; [done|]. split; [by rewrite fmap_length|done|done|].
    intros i. rewrite Hb, sbit_fmap, H1. destruct (Nat.ltb_spec i Size).
    + rewrite decide_True by done. pose proof (storage_size_cover Size).
      unfold b1. rewrite bit_fmap by lia. destruct (div8 i) as [_ Hr].
      generalize dependent (i `mod` 8). intros k Hk.
      do 8 (destruct k as [|k]; [reflexivity|]). lia.
    + rewrite decide_False by lia. apply andb_false_r.
Qed.

Lemma reset_all_rep Size b l : rep Size b l →
  ∃ b', bs_reset_all Size b = Ok tt b' ∧ rep Size b' ((λ _, false) <$> l).
Proof.
  intros [H1 H2 H3 H4]. unfold bs_reset_all. destruct (Nat.eqb_spec Size 0).
  - exists b. split; [done|]. destruct l; [|cbn in *; lia]. by split.
  - eexists. split; [done|]. split; [by rewrite fmap_length|by rewrite fmap_length| |].
    { apply Forall_fmap, Forall_true. intros. cbn. unfold byte; lia. }
    intros i. rewrite sbit_fmap, H1. destruct (decide (i < 8 * length b)).
    + rewrite bit_fmap, Z.testbit_0_l by lia. by destruct (decide (i < Size)).
    + rewrite bit_out by (rewrite fmap_length; lia). by destruct (decide (i < Size)).
Qed.

Lemma flip_all_rep Size b l : rep Size b l →
  ∃ b', bs_flip_all Size b = Ok tt b' ∧ rep Size b' (negb <$> l).
Proof.
  intros [H1 H2 H3 H4]. unfold bs_flip_all. destruct (Nat.eqb_spec Size 0).
  - exists b. split; [done|]. destruct l; [|cbn in *; lia]. by split.
  - unfold bind, modify. set (b1 := (λ v, uc (Z.lnot v)) <$> b).
    destruct (clear_spec Size b1) as (b' & E & ? & ? & Hb); [done|by unfold b1; rewrite fmap_length| |].
    { apply Forall_fmap, Forall_true. intros. apply uc_byte. }
    exists b'. split; [done|]. split; [by rewrite fmap_length|done|done|].
    intros i. rewrite Hb, sbit_fmap, H1. destruct (Nat.ltb_spec i Size).
    + rewrite decide_True by done. pose proof (storage_size_cover Size).
      unfold b1. rewrite bit_fmap by lia. destruct (div8 i) as [_ Hr].
      rewrite uc_testbit, Z.lnot_spec by lia. rewrite <-H4. unfold bit. by rewrite andb_true_r.
    + rewrite decide_False by lia. apply andb_false_r.
Qed.

Lemma write_bit Size b l i (g : Z → Z) (f : bool → bool) : rep Size b l → i < Size →
  (∀ v (r : nat), byte v → r < 8 → Z.testbit (g v) (Z.of_nat r) =
     (if decide (r = i `mod` 8) then f (Z.testbit v (Z.of_nat r)) else Z.testbit v (Z.of_nat r))) →
  ∃ b', (v <- rd (i `div` 8) ;; wr (i `div` 8) (uc (g v))) b = Ok tt b' ∧
        rep Size b' (<[i:=f (sbit l i)]> l).
Proof.
  intros [H1 H2 H3 H4] Hi Hg. pose proof (storage_size_cover Size).
  assert (i `div` 8 < length b) as Hk by (apply div8_lt; lia).
  destruct (rd_ok b (i `div` 8)) as (v & Hv & Hrd); [lia|]. unfold bind. rewrite Hrd, wr_eq by lia.
  eexists. split; [done|].
  split; [by rewrite insert_length|by rewrite insert_length|apply bytes_insert; [done|apply uc_byte]|].
  intros j. rewrite bit_insert by lia. rewrite sbit_insert by lia.
  destruct (div8 i) as [Ei Hri], (div8 j) as [Ej Hrj]. case_decide as E.
  - rewrite uc_testbit, Hg by (try lia; by eapply bytes_lookup).
    case_decide as E2.
    + rewrite decide_True by lia. rewrite <-H4. unfold bit. by rewrite (nth_lookup_Z _ _ _ Hv), E2.
    + rewrite decide_False by lia. rewrite <-H4. unfold bit. by rewrite E, (nth_lookup_Z _ _ _ Hv).
  - rewrite decide_False by congruence. done.
Qed.

Lemma testbit_pow (r k : nat) : Z.testbit (Z.shiftl 1 (Z.of_nat k)) (Z.of_nat r) = bool_decide (r = k).
Proof.
  rewrite Z.shiftl_1_l, Z.pow2_bits_eqb by lia.
  destruct (Z.eqb_spec (Z.of_nat k) (Z.of_nat r)); case_bool_decide; (done || (exfalso; lia)).
Qed.

Lemma reset_at_rep Size b l i : rep Size b l → i < Size →
  ∃ b', bs_reset_at Size i b = Ok tt b' ∧ rep Size b' (<[i:=false]> l).
Proof.
  intros Hr Hi. unfold bs_reset_at. destruct (Nat.eqb_spec Size 0); [lia|].
  destruct (Nat.leb_spec Size i); [lia|].
  apply (write_bit Size b l i (λ v, Z.land v (Z.lnot (Z.shiftl 1 (Z.of_nat (i `mod` 8))))) (λ _, false)); [done..|].
  intros v r _ Hr8. rewrite Z.land_spec, Z.lnot_spec, testbit_pow by lia.
  case_bool_decide; case_decide; try (exfalso; lia); [apply andb_false_r|apply andb_true_r].
Qed.

Lemma set_at_rep Size b l i v : rep Size b l → i < Size →
  ∃ b', bs_set_at Size i v b = Ok tt b' ∧ rep Size b' (<[i:=v]> l).
Proof.
  intros Hr Hi. unfold bs_set_at. destruct (Nat.eqb_spec Size 0); [lia|].
  destruct (Nat.leb_spec Size i); [lia|]. destruct v; [|by apply reset_at_rep].
  apply (write_bit Size b l i (λ v, Z.lor v (Z.shiftl 1 (Z.of_nat (i `mod` 8)))) (λ _, true)); [done..|].
  intros v r _ Hr8. rewrite Z.lor_spec, testbit_pow by lia.
  case_bool_decide; case_decide; try (exfalso; lia); [apply orb_true_r|apply orb_false_r].
Qed.

Lemma flip_at_rep Size b l i : rep Size b l → i < Size →
  ∃ b', bs_flip_at Size i b = Ok tt b' ∧ rep Size b' (alter negb i l).
Proof.
  intros Hr Hi. unfold bs_flip_at. destruct (Nat.eqb_spec Size 0); [lia|].
  destruct (Nat.leb_spec Size i); [lia|].
  assert (alter negb i l = <[i:=negb (sbit l i)]> l) as ->.
  { apply list_eq. intros j. destruct (decide (i = j)) as [<-|].
    - rewrite list_lookup_alter, sbit_lookup. destruct (l !! i) eqn:E.
      + cbn. rewrite list_lookup_insert; [done|by eapply lookup_lt_Some].
      + cbn. rewrite list_insert_ge; [done|by apply lookup_ge_None_1].
    - by rewrite list_lookup_alter_ne, list_lookup_insert_ne. }
  apply (write_bit Size b l i (λ v, Z.lxor v (Z.shiftl 1 (Z.of_nat (i `mod` 8)))) negb); [done..|].
  intros v r _ Hr8. rewrite Z.lxor_spec, testbit_pow by lia.
  case_bool_decide; case_decide; try (exfalso; lia); [apply xorb_true_r|apply xorb_false_r].
Qed.

Lemma at_throws Size b i : Size ≤ i →
  bs_at Size i b = Exn OutOfRange b ∧ (∀ v, bs_set_at Size i v b = Exn OutOfRange b) ∧
  bs_reset_at Size i b = Exn OutOfRange b ∧ bs_flip_at Size i b = Exn OutOfRange b.
Proof.
  intros. unfold bs_at, bs_set_at, bs_reset_at, bs_flip_at.
  destruct (Nat.leb_spec Size i); [|lia]. by destruct (Nat.eqb_spec Size 0).
Qed.

(** Construction from an integer *)
Lemma from_int_loop_rep Size value i n b l : rep Size b l → i + n ≤ Size →
  (∀ j, i ≤ j → sbit l j = false) →
  ∃ b' l', from_int_loop Size value i n b = Ok tt b' ∧ rep Size b' l' ∧
    ∀ j, sbit l' j = if decide (i ≤ j < i + n) then Z.testbit value (Z.of_nat j) else sbit l j.
Proof.
  revert i b l. induction n as [|n IH]; intros i b l Hr Hle Hz; cbn [from_int_loop].
  { exists b, l. split_and!; [done|done|]. intros j. by rewrite decide_False by lia. }
  assert (negb (Z.land value (Z.shiftl 1 (Z.of_nat i)) =? 0)%Z = Z.testbit value (Z.of_nat i)) as E.
  { rewrite Z.shiftl_1_l. destruct (Z.testbit value (Z.of_nat i)) eqn:E.
    - apply negb_true_iff, Z.eqb_neq. intros E0.
      assert (Z.testbit (Z.land value (2 ^ Z.of_nat i)) (Z.of_nat i) = true) as E1.
      { rewrite Z.land_spec, E, Z.pow2_bits_true by lia. done. }
      rewrite E0, Z.testbit_0_l in E1. done.
    - apply negb_false_iff, Z.eqb_eq. apply Z.bits_inj'. intros q Hq.
      rewrite Z.land_spec, Z.testbit_0_l, Z.pow2_bits_eqb by lia.
      destruct (Z.eqb_spec (Z.of_nat i) q) as [<-|]; [by rewrite E|apply andb_false_r]. }
  unfold bind. destruct (Z.land value (Z.shiftl 1 (Z.of_nat i)) =? 0)%Z; cbn [negb] in E.
  - unfold ret. destruct (IH (S i) b l Hr) as (b' & l' & -> & Hr' & Hb); [lia|intros; apply Hz; lia|].
    exists b', l'. split_and!; [done|done|]. intros j. rewrite Hb.
    repeat case_decide; try lia; [done| |done].
    assert (j = i) as -> by lia. by rewrite <-E, Hz.
  - destruct (set_at_rep Size b l i true Hr) as (b1 & -> & Hr1); [lia|].
    destruct (IH (S i) b1 _ Hr1) as (b' & l' & -> & Hr' & Hb); [lia| |].
    { intros j Hj. destruct Hr. rewrite sbit_insert by lia. rewrite decide_False by lia. apply Hz; lia. }
    exists b', l'. split_and!; [done|done|]. intros j. rewrite Hb. destruct Hr.
    rewrite sbit_insert by lia. repeat case_decide; try lia; try done.
    assert (j = i) as -> by lia. by rewrite <-E.
Qed.

Lemma from_int_rep wbits Size value :
  ∃ b', bs_from_int wbits Size value (bs_default Size) = Ok tt b' ∧ rep Size b' (s_of_int wbits Size value).
Proof.
  destruct (from_int_loop_rep Size value 0 (wbits `min` Size) (bs_default Size) (replicate Size false))
    as (b' & l' & E & Hr & Hb); [apply default_rep|lia| |].
  { intros j _. rewrite sbit_lookup. destruct (replicate Size false !! j) eqn:E; [|done].
    by apply lookup_replicate_1 in E as [-> _]. }
  exists b'. unfold bs_from_int, noexcept. rewrite E. split; [done|].
  replace (s_of_int wbits Size value) with l'; [done|].
  destruct Hr. apply sbit_ext; [unfold s_of_int; by rewrite fmap_length, seq_length|].
  intros j Hj. rewrite Hb. unfold s_of_int. rewrite (sbit_lookup (_ <$> _)), list_lookup_fmap, lookup_seq_lt by lia.
  cbn [fmap option_fmap option_map from_option id]. rewrite ?Nat.add_0_l. destruct (Nat.ltb_spec j wbits).
  - rewrite decide_True by lia. by rewrite andb_true_r.
  - rewrite decide_False by lia. rewrite andb_false_r, sbit_lookup, lookup_replicate_2 by lia. done.
Qed.

(** Bitwise operators *)
Lemma sbit_zip f l r i : length l = length r → f false false = false →
  sbit (zip_with f l r) i = f (sbit l i) (sbit r i).
Proof.
  intros Hl Hf. rewrite !sbit_lookup, lookup_zip_with.
  destruct (l !! i) eqn:E1.
  - destruct (lookup_lt_is_Some_2 r i) as [y ->]; [|done]. rewrite <-Hl. by eapply lookup_lt_Some.
  - cbn. rewrite (lookup_ge_None_2 r); [done|]. rewrite <-Hl. by apply lookup_ge_None_1.
Qed.

Lemma zip_rep Size a b l r (op : Z → Z → Z) (f : bool → bool → bool) :
  (∀ x y (n : Z), (0 ≤ n)%Z → Z.testbit (op x y) n = f (Z.testbit x n) (Z.testbit y n)) →
  f false false = false →
  rep Size a l → rep Size b r →
  rep Size (zip_with (λ x y, uc (op x y)) a b) (zip_with f l r).
Proof.
  intros Hop Hf [H1 H2 H3 H4] [G1 G2 G3 G4].
  assert (length (zip_with (λ x y, uc (op x y)) a b) = storage_size Size) as Hlen
    by (rewrite zip_with_length; lia).
  split; [rewrite zip_with_length; lia|done| |].
  - apply Forall_zip_with_snd with byte; [|done].
    eapply Forall_impl; [exact H3|]. intros. apply uc_byte.
  - intros i. rewrite sbit_zip by (done || lia). rewrite <-H4, <-G4.
    destruct (decide (i < 8 * length a)).
    + unfold bit. rewrite !nth_lookup, lookup_zip_with.
      destruct (lookup_lt_is_Some_2 a (i `div` 8)) as [x ->]; [by apply div8_lt|].
      destruct (lookup_lt_is_Some_2 b (i `div` 8)) as [y ->]; [apply div8_lt; lia|]. cbn.
      destruct (div8 i). change (uc (op x y)) with (uc (op x y)). rewrite uc_testbit, Hop by lia. done.
    + rewrite !bit_out by lia. done.
Qed.

Lemma rep_Size0 b l : rep 0 b l → l = [].
Proof. intros []. by destruct l. Qed.

Lemma and_rep Size a b l r : rep Size a l → rep Size b r →
  ∃ a', bs_and Size b a = Ok tt a' ∧ rep Size a' (zip_with andb l r).
Proof.
  intros Ha Hb. unfold bs_and. destruct (Nat.eqb_spec Size 0) as [->|].
  - exists a. split; [done|]. apply rep_Size0 in Ha as E. by subst l.
  - eexists. split; [done|]. apply zip_rep; [|done..]. intros. apply Z.land_spec.
Qed.
Lemma or_rep Size a b l r : rep Size a l → rep Size b r →
  ∃ a', bs_or Size b a = Ok tt a' ∧ rep Size a' (zip_with orb l r).
Proof.
  intros Ha Hb. unfold bs_or. destruct (Nat.eqb_spec Size 0) as [->|].
  - exists a. split; [done|]. apply rep_Size0 in Ha as E. by subst l.
  - eexists. split; [done|]. apply zip_rep; [|done..]. intros. apply Z.lor_spec.
Qed.
Lemma xor_rep Size a b l r : rep Size a l → rep Size b r →
  ∃ a', bs_xor Size b a = Ok tt a' ∧ rep Size a' (zip_with xorb l r).
Proof.
  intros Ha Hb. unfold bs_xor. destruct (Nat.eqb_spec Size 0) as [->|].
  - exists a. split; [done|]. apply rep_Size0 in Ha as E. by subst l.
  - eexists. split; [done|]. apply zip_rep; [|done..]. intros. apply Z.lxor_spec.
Qed.

(** Shifts *)
Lemma pred_div8 i : i `mod` 8 ≠ 0 → (i - 1) `div` 8 = i `div` 8 ∧ (i - 1) `mod` 8 = i `mod` 8 - 1.
Proof.
  intros. destruct (div8 i).
  replace (i - 1) with (8 * (i `div` 8) + (i `mod` 8 - 1)) by lia.
  rewrite div8_eq, mod8_eq by lia. done.
Qed.
Lemma pred_div8_0 i : i `mod` 8 = 0 → 8 ≤ i → (i - 1) `div` 8 = i `div` 8 - 1 ∧ (i - 1) `mod` 8 = 7.
Proof.
  intros. destruct (div8 i).
  replace (i - 1) with (8 * (i `div` 8 - 1) + 7) by lia.
  rewrite div8_eq, mod8_eq by lia. done.
Qed.

Lemma shl_byte v p (r : nat) : byte v → byte p → r < 8 →
  Z.testbit (uc (Z.lor (uc (Z.shiftl v 1)) (Z.shiftr p 7))) (Z.of_nat r) =
  if decide (r = 0) then Z.testbit p 7 else Z.testbit v (Z.of_nat (r - 1)).
Proof.
  intros Hv Hp Hr. rewrite uc_testbit, Z.lor_spec, uc_testbit, Z.shiftl_spec, Z.shiftr_spec by lia.
  case_decide as E.
  - subst. cbn. done.
  - rewrite (byte_high p) by (done || lia). rewrite orb_false_r. f_equal. lia.
Qed.

Lemma shl_inner_spec j b : j < length b → bytes b →
  ∃ b', shl_inner j b = Ok tt b' ∧ length b' = length b ∧ bytes b' ∧
    ∀ i, bit b' i = if decide (8 ≤ i < 8 * (j + 1)) then bit b (i - 1) else bit b i.
Proof.
  revert b. induction j as [|j IH]; intros b Hj Hb.
  { exists b. split_and!; [done..|]. intros. by rewrite decide_False by lia. }
  cbn [shl_inner]. destruct (rd_ok b (S j)) as (v & Hv & Ev); [done|].
  destruct (rd_ok b j) as (p & Hp & Ep); [lia|].
  assert (byte v) by (eapply bytes_lookup; done). assert (byte p) by (eapply bytes_lookup; done).
  unfold bind at 1. rewrite Ev. unfold bind at 1. rewrite wr_eq by done.
  unfold bind at 1. rewrite (rd_eq _ _ (uc (Z.shiftl v 1))) by (by apply list_lookup_insert).
  unfold bind at 1. rewrite (rd_eq _ _ p) by (rewrite list_lookup_insert_ne by lia; done).
  unfold bind at 1. rewrite wr_eq by (by rewrite insert_length). rewrite list_insert_insert.
  edestruct (IH (<[S j:=uc (Z.lor (uc (Z.shiftl v 1)) (Z.shiftr p 7))]> b)) as (b' & E & Hl & Hb' & Hbit);
    [rewrite insert_length; lia|apply bytes_insert; [done|apply uc_byte]|].
  exists b'. split_and!; [done|by rewrite Hl, insert_length|done|].
  intros i. rewrite Hbit. rewrite !bit_insert by done. destruct (div8 i) as [Ei Hri].
  destruct (decide (8 ≤ i < 8 * (j + 1))) as [Hi|Hi].
  - rewrite (decide_True (P := 8 ≤ i < 8 * (S j + 1))) by lia.
    rewrite decide_False; [done|]. intros E1. destruct (div8 (i - 1)). lia.
  - destruct (decide (i `div` 8 = S j)) as [Ej|Ej].
    + rewrite (decide_True (P := 8 ≤ i < 8 * (S j + 1))) by lia.
      rewrite shl_byte by done. case_decide as E0.
      * destruct (pred_div8_0 i) as [E1 E2]; [done|lia|]. unfold bit. rewrite E1, E2, Ej.
        replace (S j - 1) with j by lia. by rewrite (nth_lookup_Z _ _ _ Hp).
      * destruct (pred_div8 i) as [E1 E2]; [done|]. unfold bit. rewrite E1, E2, Ej.
        by rewrite (nth_lookup_Z _ _ _ Hv).
    + by rewrite decide_False by lia.
Qed.

Lemma shl_once_spec Size b : Size ≠ 0 → length b = storage_size Size → bytes b →
  ∃ b', shl_once Size b = Ok tt b' ∧ length b' = storage_size Size ∧ bytes b' ∧
    ∀ i, bit b' i = if decide (1 ≤ i < Size) then bit b (i - 1) else false.
Proof.
  intros HS Hl Hb. unfold shl_once. pose proof (storage_size_pos Size) as Hpos.
  pose proof (storage_size_cover Size) as Hcov.
  destruct (shl_inner_spec (storage_size Size - 1) b) as (b1 & E1 & Hl1 & Hb1 & Hbit1); [lia|done|].
  unfold bind at 1. rewrite E1. destruct (rd_ok b1 0) as (v & Hv & Ev); [lia|].
  unfold bind at 1. rewrite Ev. unfold bind at 1. rewrite wr_eq by lia.
  destruct (clear_spec Size (<[0:=uc (Z.shiftl v 1)]> b1)) as (b' & E' & Hl' & Hb' & Hbit');
    [done|rewrite insert_length; lia|apply bytes_insert; [done|apply uc_byte]|].
  exists b'. split_and!; [done|done|done|]. intros i. rewrite Hbit', bit_insert by lia.
  destruct (div8 i) as [Ei Hri]. destruct (Nat.ltb_spec i Size).
  2:{ rewrite andb_false_r. by rewrite decide_False by lia. }
  rewrite andb_true_r. case_decide as E0.
  - rewrite uc_testbit, Z.shiftl_spec by lia.
    assert (i `mod` 8 = i) as Em by lia. rewrite Em.
    destruct (decide (i = 0)) as [->|].
    + rewrite decide_False by lia. apply Z.testbit_neg_r. lia.
    + rewrite decide_True by lia.
      pose proof (Hbit1 (i - 1)) as Hi1. rewrite decide_False in Hi1 by lia. rewrite <-Hi1.
      destruct (pred_div8 i) as [E2 E3]; [lia|]. unfold bit. rewrite E2, E3, E0.
      rewrite (nth_lookup_Z _ _ _ Hv). f_equal. lia.
  - rewrite Hbit1. rewrite !decide_True by lia. done.
Qed.

Lemma sbit_shl Size n l i : length l = Size → sbit (s_shl Size n l) i =
  if decide (n ≤ i < Size) then sbit l (i - n) else false.
Proof.
  intros Hl. unfold s_shl. rewrite !sbit_lookup. case_decide.
  - rewrite lookup_take by lia. rewrite lookup_app_r by (rewrite replicate_length; lia).
    by rewrite replicate_length.
  - destruct (decide (i < Size)).
    + rewrite lookup_take by lia. rewrite lookup_app_l by (rewrite replicate_length; lia).
      rewrite lookup_replicate_2 by lia. done.
    + by rewrite lookup_take_ge by lia.
Qed.
Lemma s_shl_length Size n l : length l = Size → length (s_shl Size n l) = Size.
Proof. intros. unfold s_shl. rewrite take_length, app_length, replicate_length. lia. Qed.

Lemma shl_rep Size n b l : rep Size b l →
  ∃ b', bs_shl Size n b = Ok tt b' ∧ rep Size b' (s_shl Size n l).
Proof.
  intros Hr. unfold bs_shl. destruct (Nat.eqb_spec Size 0) as [->|HS].
  { exists b. split; [done|]. by apply rep_Size0 in Hr as E; subst l. }
  revert b l Hr. induction n as [|n IH]; intros b l Hr; cbn [repeat_m].
  - exists b. split; [done|]. destruct Hr as [H1 H2 H3 H4].
    unfold s_shl. cbn. rewrite take_ge by lia. by split.
  - destruct Hr as [H1 H2 H3 H4].
    destruct (shl_once_spec Size b) as (b1 & E1 & Hl1 & Hb1 & Hbit1); [done..|].
    assert (rep Size b1 (s_shl Size 1 l)) as Hr1.
    { split; [by apply s_shl_length|done|done|]. intros i. rewrite Hbit1, sbit_shl by done.
      case_decide; [apply H4|done]. }
    unfold bind. rewrite E1. destruct (IH b1 _ Hr1) as (b' & E' & Hr').
    exists b'. split; [done|]. replace (s_shl Size (S n) l) with (s_shl Size n (s_shl Size 1 l)); [done|].
    apply sbit_ext; [rewrite !s_shl_length by (done || by apply s_shl_length); done|].
    intros i _. rewrite !sbit_shl by (done || by apply s_shl_length).
    repeat case_decide; try lia; try done; f_equal; lia.
Qed.

Lemma shr_byte_low p v (r : nat) : byte p → byte v → r < 8 →
  Z.testbit (uc (Z.lor p (Z.shiftl v 7))) (Z.of_nat r) =
  if decide (r = 7) then Z.testbit p 7 || Z.testbit v 0 else Z.testbit p (Z.of_nat r).
Proof.
  intros Hp Hv Hr. rewrite uc_testbit, Z.lor_spec, Z.shiftl_spec by lia.
  case_decide as E.
  - subst. cbn. done.
  - rewrite (Z.testbit_neg_r v) by lia. by rewrite orb_false_r.
Qed.

(** After the j-th iteration bytes below j are final, byte j is shifted but lacks its carry. *)
Lemma shr_inner_spec n j b : 1 ≤ j → j + n = length b → bytes b →
  bit b (8 * (j - 1) + 7) = false →
  ∃ b', shr_inner j n b = Ok tt b' ∧ length b' = length b ∧ bytes b' ∧
    ∀ i, bit b' i = if decide (8 * j - 1 ≤ i) then bit b (i + 1) else bit b i.
Proof.
  revert j b. induction n as [|n IH]; intros j b Hj Hl Hb Hz; cbn [shr_inner].
  { exists b. split_and!; [done..|]. intros i. case_decide; [|done].
    rewrite (bit_out b (i + 1)) by lia. destruct (decide (i = 8 * j - 1)) as [->|].
    - rewrite <-Hz. f_equal. lia.
    - apply bit_out. lia. }
  destruct (rd_ok b (j - 1)) as (p & Hp & Ep); [lia|].
  destruct (rd_ok b j) as (v & Hv & Ev); [lia|].
  assert (byte v) by (eapply bytes_lookup; done). assert (byte p) by (eapply bytes_lookup; done).
  assert (Z.testbit p 7 = false) as Hp7.
  { rewrite <-Hz, (bit_at b (j - 1) 7 p) by (done || lia). done. }
  unfold bind at 1. rewrite Ep. unfold bind at 1. rewrite Ev. unfold bind at 1. rewrite wr_eq by lia.
  unfold bind at 1. rewrite (rd_eq _ _ v) by (rewrite list_lookup_insert_ne by lia; done).
  unfold bind at 1. rewrite wr_eq by (rewrite insert_length; lia).
  set (b1 := <[j:=uc (Z.shiftr v 1)]> (<[j - 1:=uc (Z.lor p (Z.shiftl v 7))]> b)).
  assert (length b1 = length b) as Hl1 by (unfold b1; by rewrite !insert_length).
  assert (∀ i, bit b1 i = if decide (8 * j - 1 ≤ i < 8 * j + 8) then
                            (if decide (i = 8 * j + 7) then false else bit b (i + 1)) else bit b i) as Hb1.
  { intros i. unfold b1. rewrite bit_insert by (rewrite insert_length; lia). rewrite bit_insert by lia.
    destruct (div8 i) as [Ei Hri]. destruct (decide (i `div` 8 = j)) as [Ej|Ej].
    - rewrite (decide_True (P := 8 * j - 1 ≤ i < 8 * j + 8)) by lia.
      rewrite uc_testbit, Z.shiftr_spec by lia. case_decide as E7.
      + apply byte_high; [done|lia].
      + replace (i + 1) with (8 * j + (i `mod` 8 + 1)) by lia. rewrite (bit_at _ _ _ v) by (done || lia).
        f_equal. lia.
    - case_decide as Ej1.
      + rewrite shr_byte_low by done. case_decide as E7.
        * rewrite decide_True by lia. rewrite decide_False by lia.
          replace (i + 1) with (8 * j + 0) by lia. rewrite (bit_at _ _ _ v) by (done || lia).
          by rewrite Hp7.
        * rewrite decide_False by lia.
          replace i with (8 * (j - 1) + i `mod` 8) at 2 by lia. by rewrite (bit_at _ _ _ p) by (done || lia).
      + by rewrite decide_False by lia. }
  destruct (IH (S j) b1) as (b' & E' & Hl' & Hb' & Hbit'); [lia|lia| | |].
  { unfold b1. apply bytes_insert; [apply bytes_insert; [done|]|]; apply uc_byte. }
  { rewrite Hb1. rewrite decide_True by lia. by rewrite decide_True by lia. }
  exists b'. split_and!; [done|lia|done|]. intros i. rewrite Hbit', !Hb1.
  repeat case_decide; try lia; try done; f_equal; lia.
Qed.

Lemma shr_once_spec Size b : length b = storage_size Size → bytes b →
  ∃ b', shr_once Size b = Ok tt b' ∧ length b' = storage_size Size ∧ bytes b' ∧
    ∀ i, bit b' i = bit b (i + 1).
Proof.
  intros Hl Hb. unfold shr_once. pose proof (storage_size_pos Size) as Hpos.
  destruct (rd_ok b 0) as (v & Hv & Ev); [lia|]. unfold bind at 1. rewrite Ev.
  assert (byte v) by (eapply bytes_lookup; done).
  unfold bind at 1. rewrite wr_eq by lia.
  set (b1 := <[0:=uc (Z.shiftr v 1)]> b).
  assert (∀ i, bit b1 i = if decide (i < 8) then (if decide (i = 7) then false else bit b (i + 1)) else bit b i) as Hb1.
  { intros i. unfold b1. rewrite bit_insert by lia. destruct (div8 i) as [Ei Hri].
    case_decide as E0.
    - rewrite (decide_True (P := i < 8)) by lia. rewrite uc_testbit, Z.shiftr_spec by lia. case_decide.
      + apply byte_high; [done|lia].
      + replace (i + 1) with (8 * 0 + (i `mod` 8 + 1)) by lia. rewrite (bit_at _ _ _ v) by (done || lia).
        f_equal. lia.
    - by rewrite decide_False by lia. }
  destruct (shr_inner_spec (storage_size Size - 1) 1 b1) as (b' & E' & Hl' & Hb' & Hbit');
    [lia|unfold b1; rewrite insert_length; lia| | |].
  { unfold b1. apply bytes_insert; [done|apply uc_byte]. }
  { rewrite Hb1. rewrite decide_True by lia. by rewrite decide_True by lia. }
  exists b'. split_and!; [done|rewrite Hl'; unfold b1; by rewrite insert_length|done|].
  intros i. rewrite Hbit', !Hb1. repeat case_decide; try lia; done.
Qed.

Lemma sbit_shr Size n l i : length l = Size → sbit (s_shr Size n l) i = sbit l (i + n).
Proof.
  intros Hl. unfold s_shr. rewrite !sbit_lookup. destruct (decide (i + n < Size)).
  - rewrite lookup_take by lia. rewrite lookup_app_l by (rewrite drop_length; lia).
    rewrite lookup_drop. f_equal. f_equal. lia.
  - rewrite (lookup_ge_None_2 l) by lia. destruct (decide (i < Size)).
    + rewrite lookup_take by lia. rewrite lookup_app_r by (rewrite drop_length; lia).
      destruct (replicate n false !! (i - length (drop n l))) eqn:E; [|done].
      by apply lookup_replicate_1 in E as [-> _].
    + by rewrite lookup_take_ge by lia.
Qed.
Lemma s_shr_length Size n l : length l = Size → length (s_shr Size n l) = Size.
Proof. intros. unfold s_shr. rewrite take_length, app_length, replicate_length, drop_length. lia. Qed.

Lemma shr_rep Size n b l : rep Size b l →
  ∃ b', bs_shr Size n b = Ok tt b' ∧ rep Size b' (s_shr Size n l).
Proof.
  intros Hr. unfold bs_shr. destruct (Nat.eqb_spec Size 0) as [->|HS].
  { exists b. split; [done|]. by apply rep_Size0 in Hr as E; subst l. }
  revert b l Hr. induction n as [|n IH]; intros b l Hr; cbn [repeat_m].
  - exists b. split; [done|]. destruct Hr as [H1 H2 H3 H4].
    unfold s_shr. rewrite drop_0, app_nil_r, take_ge by lia. by split.
  - destruct Hr as [H1 H2 H3 H4].
    destruct (shr_once_spec Size b) as (b1 & E1 & Hl1 & Hb1 & Hbit1); [done..|].
    assert (rep Size b1 (s_shr Size 1 l)) as Hr1.
    { split; [by apply s_shr_length|done|done|]. intros i. rewrite Hbit1, sbit_shr by done. apply H4. }
    unfold bind. rewrite E1. destruct (IH b1 _ Hr1) as (b' & E' & Hr').
    exists b'. split; [done|]. replace (s_shr Size (S n) l) with (s_shr Size n (s_shr Size 1 l)); [done|].
    apply sbit_ext; [rewrite !s_shr_length by (done || by apply s_shr_length); done|].
    intros i _. rewrite !sbit_shr by (done || by apply s_shr_length). f_equal. lia.
Qed.

(** * Queries *)
Definition bits8 (v : Z) : bits := (λ r, Z.testbit v (Z.of_nat r)) <$> seq 0 8.
Fixpoint flat (b : bitset) : bits := match b with [] => [] | v :: b' => bits8 v ++ flat b' end.

Lemma flat_length b : length (flat b) = 8 * length b.
Proof. induction b as [|v b IH]; [done|]. cbn [flat length]. rewrite app_length, IH. cbn. lia. Qed.

Lemma flat_sbit b i : sbit (flat b) i = bit b i.
Proof.
  revert i. induction b as [|v b IH]; intros i.
  - rewrite bit_out by (cbn; lia). apply sbit_out. cbn. lia.
  - cbn [flat]. rewrite sbit_lookup. destruct (div8 i) as [Ei Hi]. destruct (decide (i < 8)) as [H|H].
    + rewrite lookup_app_l by (cbn; lia). unfold bits8. rewrite list_lookup_fmap, lookup_seq_lt by done.
      cbn [fmap option_fmap option_map from_option id]. unfold bit.
      assert (i `div` 8 = 0) as -> by lia. assert (i `mod` 8 = i) as -> by lia. done.
    + rewrite lookup_app_r by (cbn; lia).
      change (length (bits8 v)) with 8. rewrite <-sbit_lookup, IH. unfold bit.
      assert (i `div` 8 ≠ 0) by lia.
      replace (i - 8) with (8 * (i `div` 8 - 1) + i `mod` 8) by lia. rewrite div8_eq, mod8_eq by done.
      destruct (i `div` 8) as [|q]; [done|]. cbn [nth]. replace (S q - 1) with q by lia. done.
Qed.

Lemma rep_flat Size b l : rep Size b l → flat b = l ++ replicate (8 * length b - Size) false.
Proof.
  intros [H1 H2 H3 H4]. pose proof (storage_size_cover Size).
  apply sbit_ext; [rewrite flat_length, app_length, replicate_length; lia|].
  intros i Hi. rewrite flat_sbit, H4, !sbit_lookup. destruct (decide (i < Size)).
  - by rewrite lookup_app_l by lia.
  - rewrite (lookup_ge_None_2 l) by lia. rewrite lookup_app_r by lia.
    destruct (replicate _ false !! (i - length l)) eqn:E; [|done].
    by apply lookup_replicate_1 in E as [-> _].
Qed.

Lemma byte_cases (P : Z → bool) :
  forallb (λ n, P (Z.of_nat n)) (seq 0 256) = true → ∀ v, byte v → P v = true.
Proof.
  intros H v [Hv1 Hv2]. rewrite forallb_forall in H. specialize (H (Z.to_nat v)).
  rewrite Z2Nat.id in H by done. apply H. apply in_seq. lia.
Qed.

Definition nibbles (v : Z) : Z :=
  (nth (Z.to_nat (Z.shiftr v 4)) nibble_count 0 + nth (Z.to_nat (Z.land v 15)) nibble_count 0)%Z.

Lemma nibbles_count v : byte v → nibbles v = s_count (bits8 v).
Proof.
  intros Hv. apply Z.eqb_eq. revert v Hv.
  apply (byte_cases (λ v, (nibbles v =? s_count (bits8 v))%Z)). by vm_compute.
Qed.
Lemma nonzero_bits v : byte v → negb (v =? 0)%Z = existsb id (bits8 v).
Proof.
  intros Hv. apply Bool.eqb_prop. revert v Hv.
  apply (byte_cases (λ v, Bool.eqb (negb (v =? 0)%Z) (existsb id (bits8 v)))). by vm_compute.
Qed.

Lemma s_count_app l1 l2 : s_count (l1 ++ l2) = (s_count l1 + s_count l2)%Z.
Proof. unfold s_count. rewrite filter_app, app_length. lia. Qed.
Lemma s_count_false n : s_count (replicate n false) = 0%Z.
Proof. induction n; [done|]. cbn. unfold s_count in *. rewrite filter_cons_False; done. Qed.

Lemma count_fold b acc : bytes b →
  fold_left (λ sum v, sum + (nth (Z.to_nat (Z.shiftr v 4)) nibble_count 0
                             + nth (Z.to_nat (Z.land v 15)) nibble_count 0))%Z b acc
  = (acc + s_count (flat b))%Z.
Proof.
  revert acc. induction b as [|v b IH]; intros acc Hb.
  - change (acc = acc + 0)%Z. lia.
  - apply Forall_cons in Hb as [Hv Hb]. cbn [fold_left flat]. rewrite IH by done.
    fold (nibbles v). rewrite nibbles_count, s_count_app by done. lia.
Qed.

Lemma count_rep Size b l : rep Size b l → bs_count Size b = Ok (s_count l) b.
Proof.
  intros Hr. unfold bs_count. destruct (Nat.eqb_spec Size 0) as [->|].
  { by apply rep_Size0 in Hr as ->. }
  unfold bind, get, ret. f_equal. rewrite count_fold by apply Hr.
  rewrite (rep_flat Size b l) by done. rewrite s_count_app, s_count_false. lia.
Qed.

Lemma existsb_false n : existsb id (replicate n false) = false.
Proof. by induction n. Qed.

Lemma any_flat b : bytes b → existsb (λ v, negb (v =? 0)%Z) b = existsb id (flat b).
Proof.
  induction b as [|v b IH]; intros Hb; [done|]. apply Forall_cons in Hb as [Hv Hb].
  cbn [existsb flat]. rewrite existsb_app, IH, nonzero_bits by done. done.
Qed.

Lemma any_rep Size b l : rep Size b l → bs_any Size b = Ok (existsb id l) b.
Proof.
  intros Hr. unfold bs_any. destruct (Nat.eqb_spec Size 0) as [->|].
  { by apply rep_Size0 in Hr as ->. }
  unfold bind, get, ret. f_equal. rewrite any_flat by apply Hr.
  rewrite (rep_flat Size b l) by done. rewrite existsb_app, existsb_false. by rewrite orb_false_r.
Qed.

Lemma none_rep Size b l : rep Size b l → bs_none Size b = Ok (negb (existsb id l)) b.
Proof. intros Hr. unfold bs_none, bind. by rewrite (any_rep _ _ _ Hr). Qed.

Lemma forallb_all l : forallb id l = bool_decide (l = replicate (length l) true).
Proof.
  induction l as [|x l IH]; [done|]. cbn [forallb]. rewrite IH. destruct x; cbn.
  - repeat case_bool_decide; naive_solver congruence.
  - by rewrite bool_decide_eq_false_2.
Qed.

Definition full (Size : nat) : bitset := replicate (storage_size Size - 1) 255%Z ++ [trailing_mask Size].

Lemma testbit_255 (r : nat) : r < 8 → Z.testbit 255 (Z.of_nat r) = true.
Proof. intros. do 8 (destruct r as [|r]; [reflexivity|]). lia. Qed.

Lemma full_rep Size : Size ≠ 0 → rep Size (full Size) (replicate Size true).
Proof.
  intros HS. pose proof (storage_size_pos Size). pose proof (last_byte Size HS) as [HL HC].
  assert (length (full Size) = storage_size Size) as Hlen
    by (unfold full; rewrite app_length, replicate_length; cbn [length]; lia).
  split; [apply replicate_length|done| |].
  - apply Forall_app. split; [apply Forall_replicate; unfold byte; lia|].
    apply Forall_singleton, mask_byte.
  - intros i. destruct (div8 i) as [Ei Hri].
    assert (sbit (replicate Size true) i = (i <? Size)) as ->.
    { rewrite sbit_lookup. destruct (Nat.ltb_spec i Size).
      - by rewrite lookup_replicate_2.
      - by rewrite lookup_ge_None_2 by (rewrite replicate_length; lia). }
    unfold bit, full. rewrite nth_lookup.
    destruct (decide (i `div` 8 < storage_size Size - 1)).
    + rewrite lookup_app_l by (rewrite replicate_length; lia). rewrite lookup_replicate_2 by done.
      cbn [from_option id]. rewrite testbit_255 by done. symmetry. apply Nat.ltb_lt. lia.
    + rewrite lookup_app_r by (rewrite replicate_length; lia). rewrite replicate_length.
      destruct (decide (i `div` 8 = storage_size Size - 1)) as [E|].
      * rewrite E, Nat.sub_diag. cbn [lookup list_lookup from_option id].
        change (Z.testbit (trailing_mask Size) (Z.of_nat (i `mod` 8)) = (i <? Size)).
        rewrite mask_testbit by done.
        destruct (Nat.eqb_spec (Size `mod` 8) 0); [rewrite orb_true_l|rewrite orb_false_l].
        -- symmetry. apply Nat.ltb_lt. lia.
        -- destruct (Nat.ltb_spec (i `mod` 8) (Size `mod` 8)), (Nat.ltb_spec i Size); first [done|exfalso; lia].
      * rewrite lookup_ge_None_2 by (cbn [length]; lia). cbn [from_option]. rewrite Z.testbit_0_l.
        symmetry. apply Nat.ltb_ge. pose proof (storage_size_cover Size). lia.
Qed.

Lemma forallb_255 (b : list Z) : forallb (λ v, (v =? 255)%Z) b = bool_decide (b = replicate (length b) 255%Z).
Proof.
  induction b as [|x b IH]; [done|]. cbn [forallb length replicate]. rewrite IH.
  destruct (Z.eqb_spec x 255); repeat case_bool_decide; naive_solver congruence.
Qed.

Lemma all_rep Size b l : rep Size b l → bs_all Size b = Ok (forallb id l) b.
Proof.
  intros Hr. unfold bs_all. destruct (Nat.eqb_spec Size 0) as [->|HS].
  { by apply rep_Size0 in Hr as ->. }
  pose proof (storage_size_pos Size). pose proof (rep_len _ _ _ Hr) as Hl.
  destruct (rd_ok b (storage_size Size - 1)) as (v & Hv & Ev); [lia|].
  unfold bind, get, ret. rewrite Ev. f_equal.
  rewrite forallb_all, forallb_255, take_length, (rep_bits _ _ _ Hr).
  assert (take (storage_size Size - 1) b ++ [v] = b) as Hb.
  { rewrite <-(take_drop (storage_size Size - 1) b) at 2. f_equal.
    rewrite (drop_S b v) by done. rewrite drop_ge by lia. done. }
  assert (b = full Size ↔ l = replicate Size true) as Hiff.
  { pose proof (full_rep Size HS). split; intros ->; [by eapply rep_fun|by eapply rep_inj]. }
  replace ((storage_size Size - 1) `min` length b) with (storage_size Size - 1) by lia.
  destruct (decide (b = full Size)) as [E|E].
  - rewrite (bool_decide_eq_true_2 (l = _)) by tauto. rewrite <-Hb in E. unfold full in E.
    apply app_inj_tail in E as [E1 E2]. rewrite E1, E2, Z.eqb_refl.
    rewrite bool_decide_eq_true_2; [done|]. f_equal.
  - rewrite (bool_decide_eq_false_2 (l = _)) by tauto.
    destruct (Z.eqb_spec v (trailing_mask Size)); [|apply andb_false_r].
    case_bool_decide as E3; [|done]. exfalso. apply E. rewrite <-Hb, E3. unfold full. by f_equal; f_equal.
Qed.

Lemma bytes_equal_spec a b : length a = length b → bytes_equal a b = bool_decide (a = b).
Proof.
  revert b. induction a as [|x a IH]; intros [|y b] Hl; try done. cbn [bytes_equal].
  rewrite IH by (cbn in Hl; lia).
  destruct (Z.eqb_spec x y); repeat case_bool_decide; naive_solver congruence.
Qed.

Lemma eq_rep Size a b l r : rep Size a l → rep Size b r → bs_eq Size a b = bool_decide (l = r).
Proof.
  intros Ha Hb. unfold bs_eq. destruct (Nat.eqb_spec Size 0) as [->|HS].
  { apply rep_Size0 in Ha as ->, Hb as ->. done. }
  rewrite bytes_equal_spec by (destruct Ha, Hb; congruence). apply bool_decide_ext.
  split; intros ->; [by eapply rep_fun|by eapply rep_inj].
Qed.

Lemma index_rep Size b l i : rep Size b l → i < Size → bs_index Size i b = Ok (sbit l i) b.
Proof. intros Hr Hi. by apply (rep_shows _ _ _ Hr). Qed.

(** Packing and hashing *)
Lemma byte_of_testbit l (r : nat) : Z.testbit (byte_of l) (Z.of_nat r) = sbit l r.
Proof.
  revert r. induction l as [|x l IH]; intros r.
  - cbn [byte_of]. rewrite Z.testbit_0_l. by destruct r.
  - cbn [byte_of]. change (if x then 1%Z else 0%Z) with (Z.b2z x). destruct r as [|r].
    + change (Z.of_nat 0) with 0%Z. by rewrite Z.add_b2z_double_bit0.
    + rewrite Nat2Z.inj_succ. rewrite <-Z.div2_bits by lia.
      rewrite Z.add_b2z_double_div2. apply IH.
Qed.
Lemma byte_of_bound l : (0 ≤ byte_of l < 2 ^ Z.of_nat (length l))%Z.
Proof.
  induction l as [|x l IH]; [cbn; lia|]. cbn [byte_of length]. rewrite Nat2Z.inj_succ, Z.pow_succ_r by lia.
  destruct x; lia.
Qed.
Lemma byte_of_byte l : length l ≤ 8 → byte (byte_of l).
Proof.
  intros H. pose proof (byte_of_bound l). unfold byte. split; [lia|].
  apply Z.lt_le_trans with (2 ^ Z.of_nat (length l))%Z; [lia|].
  change 256%Z with (2 ^ 8)%Z. apply Z.pow_le_mono_r; lia.
Qed.
Lemma pack_length n l : length (pack n l) = n.
Proof. revert l. induction n; intros; cbn; [done|by f_equal]. Qed.
Lemma pack_bytes n l : bytes (pack n l).
Proof.
  revert l. induction n; intros; constructor; [|apply IHn]. apply byte_of_byte. rewrite take_length. lia.
Qed.
Lemma pack_bit n l i : length l ≤ 8 * n → bit (pack n l) i = sbit l i.
Proof.
  revert l i. induction n as [|n IH]; intros l i Hl.
  - rewrite bit_out by (cbn; lia). rewrite sbit_out by lia. done.
  - cbn [pack]. destruct (div8 i) as [Ei Hi]. destruct (decide (i < 8)).
    + unfold bit. assert (i `div` 8 = 0) as -> by lia. assert (i `mod` 8 = i) as -> by lia. cbn [nth].
      rewrite byte_of_testbit, !sbit_lookup, lookup_take by done. done.
    + specialize (IH (drop 8 l) (i - 8)). rewrite drop_length in IH. specialize (IH ltac:(lia)).
      rewrite (sbit_lookup l). replace i with (8 + (i - 8)) at 2 by lia. rewrite <-lookup_drop, <-sbit_lookup, <-IH.
      unfold bit. assert (i `div` 8 ≠ 0) by lia.
      replace (i - 8) with (8 * (i `div` 8 - 1) + i `mod` 8) by lia. rewrite div8_eq, mod8_eq by done.
      destruct (i `div` 8) as [|q]; [done|]. cbn [nth]. replace (S q - 1) with q by lia. done.
Qed.

Lemma bytes_for_storage Size : Size ≠ 0 → bytes_for Size = storage_size Size.
Proof.
  intros HS. unfold bytes_for. destruct (div8 (Size + 7)) as [E1 H1]. pose proof (storage_size_pos Size). pose proof (last_byte Size HS) as [HL HC].
  destruct (div8 Size). destruct HC as [[? ?]|[? ?]]; lia.
Qed.

Lemma rep_pack Size b l : Size ≠ 0 → rep Size b l → b = pack (bytes_for Size) l.
Proof.
  intros HS [H1 H2 H3 H4]. pose proof (storage_size_cover Size). rewrite bytes_for_storage by done.
  apply bytes_ext; [by rewrite pack_length|done|apply pack_bytes|].
  intros i _. rewrite pack_bit by lia. apply H4.
Qed.

Lemma fnv_fold prime modulus b acc :
  fold_left (λ hash value, (Z.lxor hash value * prime) `mod` modulus)%Z b acc = fnv1a prime modulus acc b.
Proof. revert acc. induction b as [|v b IH]; intros; [done|]. cbn. apply IH. Qed.

(** * Worlds and histories *)
Definition wrel (Size : nat) (w : bworld) (m : sworld) : Prop :=
  ∀ x, option_Forall2 (rep Size) (w !! x) (m !! x).

Lemma wrel_lookup Size w m x l : wrel Size w m → m !! x = Some l → ∃ b, w !! x = Some b ∧ rep Size b l.
Proof. intros H E. specialize (H x). rewrite E in H. inversion H; subst. eauto. Qed.
Lemma wrel_lookup_w Size w m x b : wrel Size w m → w !! x = Some b → ∃ l, m !! x = Some l ∧ rep Size b l.
Proof. intros H E. specialize (H x). rewrite E in H. inversion H; subst. eauto. Qed.
Lemma wrel_none Size w m x : wrel Size w m → m !! x = None → w !! x = None.
Proof. intros H E. specialize (H x). rewrite E in H. by inversion H. Qed.
Lemma wrel_insert Size w m x b l : wrel Size w m → rep Size b l → wrel Size (<[x:=b]> w) (<[x:=l]> m).
Proof.
  intros H Hr y. destruct (decide (x = y)) as [<-|].
  - rewrite !lookup_insert. by constructor.
  - rewrite !lookup_insert_ne by done. apply H.
Qed.
Lemma wrel_empty Size : wrel Size ∅ ∅.
Proof. intros x. rewrite !lookup_empty. constructor. Qed.

(** model call [o] in [w] agrees with observation [r] and spec state [m'] *)
Definition agrees (wbits Size : nat) (o : bop) (w : bworld) (r : bobs) (m' : sworld) : Prop :=
  ∃ w', wrel Size w' m' ∧
    (bexec wbits Size o w = Ok r w' ∧ (∀ e, r ≠ BThrew e) ∨
     ∃ e, r = BThrew e ∧ bexec wbits Size o w = Exn e w').

Lemma on_bs_ok {A} x (m : M bitset A) w b a b' : w !! x = Some b → m b = Ok a b' →
  on_bs x m w = Ok a (<[x:=b']> w).
Proof. intros H E. unfold on_bs. by rewrite H, E. Qed.
Lemma on_bs_exn {A} x (m : M bitset A) w b e b' : w !! x = Some b → m b = Exn e b' →
  on_bs x m w = Exn e (<[x:=b']> w).
Proof. intros H E. unfold on_bs. by rewrite H, E. Qed.
Lemma on_bs_none {A} x (m : M bitset A) w : w !! x = None → on_bs x m w = Stuck NoObject.
Proof. intros H. unfold on_bs. by rewrite H. Qed.

Lemma wrel_same Size w m x b : wrel Size w m → w !! x = Some b → wrel Size (<[x:=b]> w) m.
Proof. intros H E. by rewrite insert_id. Qed.

Lemma sim_upd wbits Size o x (op : M bitset unit) (f : bits → bits) w m l :
  (bexec wbits Size o w = unit_obs (on_bs x op) w) →
  (∀ b, rep Size b l → ∃ b', op b = Ok tt b' ∧ rep Size b' (f l)) →
  wrel Size w m → m !! x = Some l → agrees wbits Size o w BUnit (<[x:=f l]> m).
Proof.
  intros Ho Hop Hw E. destruct (wrel_lookup _ _ _ _ _ Hw E) as (b & Hb & Hr).
  destruct (Hop b Hr) as (b' & Eb & Hr'). eexists. split; [by apply wrel_insert|]. left.
  split; [|done]. rewrite Ho. unfold unit_obs, bind. by rewrite (on_bs_ok _ _ _ _ _ _ Hb Eb).
Qed.

Lemma sim_throw wbits Size o x (op : M bitset unit) w m l :
  (bexec wbits Size o w = unit_obs (on_bs x op) w) →
  (∀ b, op b = Exn OutOfRange b) →
  wrel Size w m → m !! x = Some l → agrees wbits Size o w (BThrew OutOfRange) m.
Proof.
  intros Ho Hop Hw E. destruct (wrel_lookup _ _ _ _ _ Hw E) as (b & Hb & Hr).
  exists w. split; [done|]. right. eexists. split; [done|].
  rewrite Ho. unfold unit_obs, bind. rewrite (on_bs_exn _ _ _ _ _ _ Hb (Hop b)). by rewrite insert_id.
Qed.

Lemma sim_ask {A} wbits Size o x (op : M bitset A) (g : A → bobs) (f : bits → A) w m l :
  (bexec wbits Size o w = (a <- on_bs x op ;; ret (g a)) w) →
  (∀ a e, g a ≠ BThrew e) →
  (∀ b, rep Size b l → op b = Ok (f l) b) →
  wrel Size w m → m !! x = Some l → agrees wbits Size o w (g (f l)) m.
Proof.
  intros Ho Hg Hop Hw E. destruct (wrel_lookup _ _ _ _ _ Hw E) as (b & Hb & Hr).
  exists w. split; [done|]. left. split; [|done].
  rewrite Ho. unfold bind. rewrite (on_bs_ok _ _ _ _ _ _ Hb (Hop b Hr)). by rewrite insert_id.
Qed.

Lemma at_rep Size b l i : rep Size b l → i < Size → bs_at Size i b = Ok (sbit l i) b.
Proof.
  intros Hr Hi. unfold bs_at. destruct (Nat.leb_spec Size i); [lia|]. by apply index_rep.
Qed.

Ltac inj E := cbn [mbind option_bind] in E; injection E as <- <-.

Lemma bexec_sim wbits Size o w m r m' :
  wrel Size w m → sexec wbits Size o m = Some (r, m') → agrees wbits Size o w r m'.
Proof.
  intros Hw E. destruct o; cbn [sexec] in E.
  - (* BNew *) inj E. eexists. split; [apply wrel_insert; [done|apply default_rep]|].
    by left.
  - (* BNewInt *) inj E.
    destruct (from_int_rep wbits Size value) as (b' & Eb & Hr).
    exists (<[x:=b']> w). split; [by apply wrel_insert|]. left. split; [|done].
    cbn [bexec]. unfold modify, bind at 1. unfold unit_obs, bind.
    rewrite (on_bs_ok x _ _ (bs_default Size) tt b'); [|by rewrite lookup_insert|done].
    by rewrite insert_insert.
  - (* BCopy *) destruct (m !! y) as [l|] eqn:El; [|done]. inj E.
    destruct (wrel_lookup _ _ _ _ _ Hw El) as (b & Hb & Hr).
    exists (<[x:=b]> w). split; [by apply wrel_insert|]. left. split; [|done].
    cbn [bexec]. unfold bind, peek_bs. by rewrite Hb.
  - destruct (m !! x) as [l|] eqn:El; [|done]. inj E.
    eapply (sim_upd _ _ _ x (bs_set_all Size) (fmap (λ _, true))); [done| |done..].
    intros. by apply set_all_rep.
  - destruct (m !! x) as [l|] eqn:El; [|done]. cbn [mbind option_bind] in E.
    destruct (Nat.ltb_spec i Size); inj E.
    + eapply (sim_upd _ _ _ x (bs_set_at Size i v) (<[i:=v]>)); [done| |done..].
      intros. by apply set_at_rep.
    + eapply (sim_throw _ _ _ x (bs_set_at Size i v)); [done| |done..]. intros. by apply at_throws.
  - destruct (m !! x) as [l|] eqn:El; [|done]. inj E.
    eapply (sim_upd _ _ _ x (bs_reset_all Size) (fmap (λ _, false))); [done| |done..].
    intros. by apply reset_all_rep.
  - destruct (m !! x) as [l|] eqn:El; [|done]. cbn [mbind option_bind] in E.
    destruct (Nat.ltb_spec i Size); inj E.
    + eapply (sim_upd _ _ _ x (bs_reset_at Size i) (<[i:=false]>)); [done| |done..].
      intros. by apply reset_at_rep.
    + eapply (sim_throw _ _ _ x (bs_reset_at Size i)); [done| |done..]. intros. by apply at_throws.
  - destruct (m !! x) as [l|] eqn:El; [|done]. inj E.
    eapply (sim_upd _ _ _ x (bs_flip_all Size) (fmap negb)); [done| |done..].
    intros. by apply flip_all_rep.
  - destruct (m !! x) as [l|] eqn:El; [|done]. cbn [mbind option_bind] in E.
    destruct (Nat.ltb_spec i Size); inj E.
    + eapply (sim_upd _ _ _ x (bs_flip_at Size i) (alter negb i)); [done| |done..].
      intros. by apply flip_at_rep.
    + eapply (sim_throw _ _ _ x (bs_flip_at Size i)); [done| |done..]. intros. by apply at_throws.
  - destruct (m !! y) as [r2|] eqn:Er; [|done]. destruct (m !! x) as [l|] eqn:El; [|done]. inj E.
    destruct (wrel_lookup _ _ _ _ _ Hw Er) as (b2 & Hb2 & Hr2).
    eapply (sim_upd _ _ _ x (bs_and Size b2) (λ l, zip_with andb l r2)); [| |done..].
    + cbn [bexec]. unfold bind at 1, peek_bs. by rewrite Hb2.
    + intros. by apply and_rep.
  - destruct (m !! y) as [r2|] eqn:Er; [|done]. destruct (m !! x) as [l|] eqn:El; [|done]. inj E.
    destruct (wrel_lookup _ _ _ _ _ Hw Er) as (b2 & Hb2 & Hr2).
    eapply (sim_upd _ _ _ x (bs_or Size b2) (λ l, zip_with orb l r2)); [| |done..].
    + cbn [bexec]. unfold bind at 1, peek_bs. by rewrite Hb2.
    + intros. by apply or_rep.
  - destruct (m !! y) as [r2|] eqn:Er; [|done]. destruct (m !! x) as [l|] eqn:El; [|done]. inj E.
    destruct (wrel_lookup _ _ _ _ _ Hw Er) as (b2 & Hb2 & Hr2).
    eapply (sim_upd _ _ _ x (bs_xor Size b2) (λ l, zip_with xorb l r2)); [| |done..].
    + cbn [bexec]. unfold bind at 1, peek_bs. by rewrite Hb2.
    + intros. by apply xor_rep.
  - destruct (m !! y) as [r2|] eqn:Er; [|done]. destruct (m !! x) as [l|] eqn:El; [|done]. inj E.
    destruct (wrel_lookup _ _ _ _ _ Hw Er) as (b2 & Hb2 & Hr2).
    destruct (wrel_lookup _ _ _ _ _ Hw El) as (b1 & Hb1 & Hr1).
    destruct (flip_all_rep _ _ _ Hr2) as (b' & Eb & Hr').
    exists (<[x:=b']> w). split; [by apply wrel_insert|]. left. split; [|done].
    cbn [bexec]. unfold bind, peek_bs, bs_op_not, on_copy. by rewrite Hb2, Hb1, Eb.
  - destruct (m !! x) as [l|] eqn:El; [|done]. inj E.
    eapply (sim_upd _ _ _ x (bs_shl Size n) (s_shl Size n)); [done| |done..].
    intros. by apply shl_rep.
  - destruct (m !! x) as [l|] eqn:El; [|done]. inj E.
    eapply (sim_upd _ _ _ x (bs_shr Size n) (s_shr Size n)); [done| |done..].
    intros. by apply shr_rep.
  - destruct (m !! x) as [l|] eqn:El; [|done]. destruct (m !! y) as [r2|] eqn:Er; [|done]. inj E.
    destruct (wrel_lookup _ _ _ _ _ Hw Er) as (b2 & Hb2 & Hr2).
    destruct (wrel_lookup _ _ _ _ _ Hw El) as (b1 & Hb1 & Hr1).
    eexists. split; [|left; split; [cbn [bexec]; unfold bind at 1, peek_bs; rewrite Hb1;
      unfold bind at 1; rewrite Hb2; unfold bind, modify, ret; done|done]].
    unfold bs_swap. destruct (Nat.eqb_spec Size 0) as [->|]; cbn [fst snd].
    + apply rep_Size0 in Hr1 as ?, Hr2 as ?. subst.
      apply wrel_insert; [apply wrel_insert; [done|]|]; done.
    + apply wrel_insert; [apply wrel_insert; [done|]|]; done.
  - destruct (m !! x) as [l|] eqn:El; [|done]. cbn [mbind option_bind] in E. inj E.
    destruct (Nat.ltb_spec i Size).
    + eapply (sim_ask _ _ _ x (bs_test Size i) BBool (λ l, sbit l i)); [done|done| |done..].
      intros. by apply at_rep.
    + destruct (wrel_lookup _ _ _ _ _ Hw El) as (b & Hb & Hr).
      exists w. split; [done|]. right. eexists. split; [done|]. cbn [bexec].
      unfold bool_obs, bind. rewrite (on_bs_exn _ _ _ _ OutOfRange b Hb) by (by apply at_throws). by rewrite insert_id.
  - destruct (m !! x) as [l|] eqn:El; [|done]. cbn [mbind option_bind] in E. inj E.
    destruct (Nat.ltb_spec i Size).
    + eapply (sim_ask _ _ _ x (bs_at Size i) BBool (λ l, sbit l i)); [done|done| |done..].
      intros. by apply at_rep.
    + destruct (wrel_lookup _ _ _ _ _ Hw El) as (b & Hb & Hr).
      exists w. split; [done|]. right. eexists. split; [done|]. cbn [bexec].
      unfold bool_obs, bind. rewrite (on_bs_exn _ _ _ _ OutOfRange b Hb) by (by apply at_throws). by rewrite insert_id.
  - destruct (Nat.ltb_spec i Size); [|done].
    destruct (m !! x) as [l|] eqn:El; [|done]. inj E.
    eapply (sim_ask _ _ _ x (bs_index Size i) BBool (λ l, sbit l i)); [done|done| |done..].
    intros. by apply index_rep.
  - destruct (m !! x) as [l|] eqn:El; [|done]. inj E.
    eapply (sim_ask _ _ _ x (bs_all Size) BBool (forallb id)); [done|done| |done..].
    intros. by apply all_rep.
  - destruct (m !! x) as [l|] eqn:El; [|done]. inj E.
    eapply (sim_ask _ _ _ x (bs_any Size) BBool (existsb id)); [done|done| |done..].
    intros. by apply any_rep.
  - destruct (m !! x) as [l|] eqn:El; [|done]. inj E.
    eapply (sim_ask _ _ _ x (bs_none Size) BBool (λ l, negb (existsb id l))); [done|done| |done..].
    intros. by apply none_rep.
  - destruct (m !! x) as [l|] eqn:El; [|done]. inj E.
    eapply (sim_ask _ _ _ x (bs_count Size) BInt s_count); [done|done| |done..].
    intros. by apply count_rep.
  - destruct (m !! x) as [l|] eqn:El; [|done]. destruct (m !! y) as [r2|] eqn:Er; [|done]. inj E.
    destruct (wrel_lookup _ _ _ _ _ Hw Er) as (b2 & Hb2 & Hr2).
    destruct (wrel_lookup _ _ _ _ _ Hw El) as (b1 & Hb1 & Hr1).
    exists w. split; [done|]. left. split; [|done]. cbn [bexec]. unfold bind, peek_bs. rewrite Hb1, Hb2.
    unfold ret. by rewrite (eq_rep _ _ _ _ _ Hr1 Hr2).
Qed.

Lemma brun_sim wbits Size os w m rs m' :
  wrel Size w m → srun wbits Size os m = Some (rs, m') →
  ∃ w', brun wbits Size os w = Some (rs, w') ∧ wrel Size w' m'.
Proof.
  revert w m rs m'. induction os as [|o os IH]; intros w m rs m' Hw E; cbn [srun brun] in *.
  { injection E as <- <-. eauto. }
  destruct (sexec wbits Size o m) as [[r m1]|] eqn:E1; [|done]. cbn in E.
  destruct (srun wbits Size os m1) as [[rs2 m2]|] eqn:E2; [|done]. injection E as <- <-.
  destruct (bexec_sim _ _ _ _ _ _ _ Hw E1) as (w1 & Hw1 & Hc).
  destruct (IH _ _ _ _ Hw1 E2) as (w2 & Eb & Hw2). exists w2. split; [|done].
  destruct Hc as [[-> _]|(e & -> & ->)]; by rewrite Eb.
Qed.

(** Any call that completes keeps every object well-formed, contract or not. *)
Lemma bexec_valid wbits Size o w m r w' :
  wrel Size w m → (bexec wbits Size o w = Ok r w' ∨ ∃ e, bexec wbits Size o w = Exn e w') →
  ∃ m', wrel Size w' m'.
Proof.
  intros Hw E. destruct (sexec wbits Size o m) as [[r1 m1]|] eqn:E1.
  { destruct (bexec_sim _ _ _ _ _ _ _ Hw E1) as (w1 & Hw1 & Hc). exists m1.
    destruct Hc as [[Ec _]|(e & -> & Ec)]; rewrite Ec in E; destruct E as [E|[e' E]]; by inversion E; subst. }
  destruct o; cbn [sexec] in E1; try done;
  repeat match goal with
  | H : context [m !! ?x ≫= _] |- _ =>
      let El := fresh "El" in destruct (m !! x) eqn:El; [|apply (wrel_none _ _ _ _ Hw) in El]; cbn [mbind option_bind] in H; try done
  | H : (if ?i <? Size then _ else _) = None |- _ => destruct (Nat.ltb_spec i Size); try done
  end;
  try (exfalso; cbn [bexec] in E; unfold unit_obs, bool_obs, int_obs, on_bs, peek_bs, bind in E;
    repeat match goal with
    | H : w !! ?x = None |- _ => rewrite H in E
    | H : m !! ?x = Some _ |- _ => apply (wrel_lookup _ _ _ _ _ Hw) in H as (? & H & ?); rewrite H in E
    end; by destruct E as [?|[??]]).
  (* operator[] beyond Size *)
  cbn [bexec] in E. unfold bool_obs, bind in E.
  destruct (w !! x) as [b|] eqn:Eb; [|rewrite on_bs_none in E by done; by destruct E as [?|[??]]].
  unfold on_bs in E. rewrite Eb in E. unfold bs_index, ret in E.
  destruct (Size =? 0).
  { destruct E as [E|[??]]; [|done]. inversion E; subst. rewrite insert_id by done. eauto. }
  unfold bind, rd in E. destruct (b !! (i `div` 8)).
  - destruct E as [E|[??]]; [|done]. inversion E; subst. rewrite insert_id by done. eauto.
  - by destruct E as [?|[??]].
Qed.

Lemma brun_valid wbits Size os w m rs w' :
  wrel Size w m → brun wbits Size os w = Some (rs, w') → ∃ m', wrel Size w' m'.
Proof.
  revert w m rs. induction os as [|o os IH]; intros w m rs Hw E; cbn [brun] in E.
  { injection E as <- <-. eauto. }
  destruct (bexec wbits Size o w) as [r w1|e w1| |] eqn:E1; try done.
  - destruct (bexec_valid wbits Size o w m r w1 Hw) as [m1 Hw1]; [by left|].
    destruct (brun wbits Size os w1) as [[? ?]|] eqn:E2; [|done]. injection E as <- <-. by eapply IH.
  - destruct (bexec_valid wbits Size o w m BUnit w1 Hw) as [m1 Hw1]; [right; eauto|].
    destruct (brun wbits Size os w1) as [[? ?]|] eqn:E2; [|done]. injection E as <- <-. by eapply IH.
Qed.

Lemma reachable_rep wbits Size b : reachable wbits Size b → ∃ l, rep Size b l.
Proof.
  intros (os & obs & w & x & E & Hx).
  destruct (brun_valid _ _ _ _ _ _ _ (wrel_empty Size) E) as [m Hw].
  destruct (wrel_lookup_w _ _ _ _ _ Hw Hx) as (l & _ & Hr). eauto.
Qed.

Lemma reachable_shows_rep wbits Size b l : reachable wbits Size b → shows Size b l → rep Size b l.
Proof.
  intros Hb Hs. destruct (reachable_rep _ _ _ Hb) as [l' Hr].
  by rewrite (shows_unique _ _ _ _ Hs (rep_shows _ _ _ Hr)).
Qed.
