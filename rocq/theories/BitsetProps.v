(** Properties C01-C13: bitset.

    [reachable wbits Size b]: some history of calls, starting from no objects, left [b]
    in some object. [shows Size b l]: const operator[] answers l at every index < Size. *)
From stdpp Require Import prelude gmap.
From Coq Require Import ZArith Ascii Lia.
From Verif Require Import Cpp BitsetModel BitsetSpec BitsetIoModel BitsetProofs BitsetIoProofs.
Local Open Scope nat_scope.

(** to exhibit a reachable bitset: run the history and look *)
Lemma reachable_by wbits Size os x b :
  ((λ r : list bobs * bworld, r.2 !! x) <$> brun wbits Size os ∅) = Some (Some b) → reachable wbits Size b.
Proof.
  destruct (brun wbits Size os ∅) as [[rs w]|] eqn:E; [|done]. cbn. intros [= H]. by exists os, rs, w, x.
Qed.

(** ** C01 *)
Theorem C01_bitset_history wbits Size os rs m :
  srun wbits Size os ∅ = Some (rs, m) →
  ∃ w, brun wbits Size os ∅ = Some (rs, w) ∧
    ∀ x, match w !! x, m !! x with
         | Some b, Some l => shows Size b l
         | None, None => True
         | _, _ => False
         end.
Proof.
  intros E. destruct (brun_sim wbits Size os ∅ ∅ rs m (wrel_empty Size) E) as (w & Ew & Hw).
  exists w. split; [done|]. intros x. specialize (Hw x). destruct Hw; [by apply rep_shows|done].
Qed.

(** every reachable bitset answers some sequence of exactly Size bits *)
Theorem C01_reachable_shows wbits Size b : reachable wbits Size b → ∃ l, shows Size b l.
Proof. intros H. destruct (reachable_rep _ _ _ H) as [l Hl]. exists l. by apply rep_shows. Qed.

Example C01_case :
  let os := [BNewInt 0 5; BNew 1; BFlipAll 1; BShl 1 3; BXor 1 0; BSet 1 40 true; BTest 1 40; BTest 1 9; BSwap 0 1;
             BCount 0; BAllQ 1; BNot 0 0; BEqual 0 1; BAt 1 10; BShr 0 70] in
  (fst <$> srun 64 10 os ∅) =
    Some [BUnit; BUnit; BUnit; BUnit; BUnit; BThrew OutOfRange; BThrew OutOfRange; BBool true; BUnit;
          BInt 9; BBool false; BUnit; BBool false; BThrew OutOfRange; BUnit]%Z
  ∧ (fst <$> brun 64 10 os ∅) = (fst <$> srun 64 10 os ∅).
Proof. by vm_compute. Qed.

(** ** C02 *)
Theorem C02_bitset_queries wbits Size b l :
  reachable wbits Size b → shows Size b l →
  bs_all Size b = Ok (forallb id l) b ∧
  bs_any Size b = Ok (existsb id l) b ∧
  bs_none Size b = Ok (negb (existsb id l)) b ∧
  bs_to_bool Size b = Ok (existsb id l) b ∧
  bs_count Size b = Ok (Z.of_nat (length (filter (λ x, x = true) l))) b.
Proof.
  intros Hb Hs. assert (rep Size b l) as Hr by (by eapply reachable_shows_rep).
  split_and!; [by apply all_rep|by apply any_rep|by apply none_rep|by apply any_rep|by apply count_rep].
Qed.

Theorem C02_bitset_equality wbits Size a b l r :
  reachable wbits Size a → reachable wbits Size b → shows Size a l → shows Size b r →
  bs_eq Size a b = bool_decide (l = r) ∧ bs_ne Size a b = bool_decide (l ≠ r).
Proof.
  intros Ha Hb Hsa Hsb. assert (bs_eq Size a b = bool_decide (l = r)) as E.
  { apply eq_rep; by eapply reachable_shows_rep. }
  split; [done|]. unfold bs_ne. rewrite E. by rewrite bool_decide_not.
Qed.

(** flipping a zero bitset<13> leaves only 13 bits set, not 16 *)
Example C02_case : ∃ b, reachable 64 13 b ∧ shows 13 b (replicate 13 true) ∧
  bs_all 13 b = Ok true b ∧ bs_count 13 b = Ok 13%Z b.
Proof.
  exists [255; 31]%Z. split_and!.
  - apply (reachable_by _ _ [BNew 7; BFlipAll 7] 7). by vm_compute.
  - split; [done|]. intros i Hi. do 13 (destruct i as [|i]; [by vm_compute|]). lia.
  - by vm_compute.
  - by vm_compute.
Qed.

(** ** C03 *)
Theorem C03_bitset_shift_left wbits Size n b l :
  reachable wbits Size b → shows Size b l →
  ∃ b' l', bs_shl Size n b = Ok tt b' ∧ bs_op_shl Size b n = Ok b' tt ∧ shows Size b' l' ∧
    ∀ i, i < Size → sbit l' i = if n <=? i then sbit l (i - n) else false.
Proof.
  intros Hb Hs. assert (rep Size b l) as Hr by (by eapply reachable_shows_rep).
  destruct (shl_rep Size n b l Hr) as (b' & E & Hr'). exists b', (s_shl Size n l).
  split_and!; [done|unfold bs_op_shl, on_copy; by rewrite E|by apply rep_shows|].
  intros i Hi. rewrite sbit_shl by apply Hr. destruct (Nat.leb_spec n i); case_decide; (done || lia).
Qed.

Theorem C03_bitset_shift_right wbits Size n b l :
  reachable wbits Size b → shows Size b l →
  ∃ b' l', bs_shr Size n b = Ok tt b' ∧ bs_op_shr Size b n = Ok b' tt ∧ shows Size b' l' ∧
    ∀ i, i < Size → sbit l' i = if i + n <? Size then sbit l (i + n) else false.
Proof.
  intros Hb Hs. assert (rep Size b l) as Hr by (by eapply reachable_shows_rep).
  destruct (shr_rep Size n b l Hr) as (b' & E & Hr'). exists b', (s_shr Size n l).
  split_and!; [done|unfold bs_op_shr, on_copy; by rewrite E|by apply rep_shows|].
  intros i Hi. rewrite sbit_shr by apply Hr. destruct (Nat.ltb_spec (i + n) Size); [done|].
  apply sbit_out. destruct Hr. lia.
Qed.

Example C03_case : ∃ b, reachable 64 20 b ∧ shows 20 b (true :: replicate 18 false ++ [true]) ∧
  bs_shl 20 9 b = Ok tt [0; 2; 0]%Z ∧ bs_shr 20 9 b = Ok tt [0; 4; 0]%Z ∧ bs_shl 20 21 b = Ok tt [0; 0; 0]%Z.
Proof.
  exists [1; 0; 8]%Z. split_and!; try by vm_compute.
  - apply (reachable_by _ _ [BNew 0; BSet 0 0 true; BSet 0 19 true] 0). by vm_compute.
  - split; [done|]. intros i Hi. do 20 (destruct i as [|i]; [by vm_compute|]). lia.
Qed.

(** ** C04 *)
Theorem C04_bitset_bitwise wbits Size a b l r :
  reachable wbits Size a → reachable wbits Size b → shows Size a l → shows Size b r →
  ∃ x y z t lx ly lz lt,
    bs_op_and Size a b = Ok x tt ∧ bs_op_or Size a b = Ok y tt ∧
    bs_op_xor Size a b = Ok z tt ∧ bs_op_not Size a = Ok t tt ∧
    shows Size x lx ∧ shows Size y ly ∧ shows Size z lz ∧ shows Size t lt ∧
    ∀ i, i < Size →
      sbit lx i = sbit l i && sbit r i ∧ sbit ly i = sbit l i || sbit r i ∧
      sbit lz i = xorb (sbit l i) (sbit r i) ∧ sbit lt i = negb (sbit l i).
Proof.
  intros Ha Hb Hsa Hsb.
  assert (rep Size a l) as Hra by (by eapply reachable_shows_rep).
  assert (rep Size b r) as Hrb by (by eapply reachable_shows_rep).
  destruct (and_rep Size a b l r) as (x & Ex & Hx); [done..|].
  destruct (or_rep Size a b l r) as (y & Ey & Hy); [done..|].
  destruct (xor_rep Size a b l r) as (z & Ez & Hz); [done..|].
  destruct (flip_all_rep Size a l) as (t & Et & Ht); [done..|].
  exists x, y, z, t, (zip_with andb l r), (zip_with orb l r), (zip_with xorb l r), (negb <$> l).
  unfold bs_op_and, bs_op_or, bs_op_xor, bs_op_not, on_copy. rewrite Ex, Ey, Ez, Et.
  split_and!; try done; try by apply rep_shows.
  intros i Hi. destruct Hra, Hrb. rewrite !sbit_zip, sbit_fmap, decide_True by (done || lia). done.
Qed.

Example C04_case : ∃ a b, reachable 64 11 a ∧ reachable 64 11 b ∧
  shows 11 a [true;true;false;false;false;false;false;false;false;false;true] ∧
  shows 11 b [true;false;true;false;false;false;false;false;false;false;true] ∧
  bs_op_xor 11 a b = Ok [6; 0]%Z tt ∧ bs_op_not 11 a = Ok [252; 3]%Z tt.
Proof.
  exists [3; 4]%Z, [5; 4]%Z. split_and!; try by vm_compute.
  - apply (reachable_by _ _ [BNewInt 0 1027] 0). by vm_compute.
  - apply (reachable_by _ _ [BNewInt 0 1029] 0). by vm_compute.
  - split; [done|]. intros i Hi. do 11 (destruct i as [|i]; [by vm_compute|]). lia.
  - split; [done|]. intros i Hi. do 11 (destruct i as [|i]; [by vm_compute|]). lia.
Qed.

(** ** C05 *)
Theorem C05_bitset_checked_out wbits Size b i :
  reachable wbits Size b → Size ≤ i →
  bs_at Size i b = Exn OutOfRange b ∧ bs_test Size i b = Exn OutOfRange b ∧
  (∀ v, bs_set_at Size i v b = Exn OutOfRange b) ∧
  bs_reset_at Size i b = Exn OutOfRange b ∧ bs_flip_at Size i b = Exn OutOfRange b.
Proof.
  intros _ Hi. destruct (at_throws Size b i Hi) as (H1 & H2 & H3 & H4). by split_and!.
Qed.

Theorem C05_bitset_checked_in wbits Size b l i :
  reachable wbits Size b → shows Size b l → i < Size →
  bs_at Size i b = Ok (sbit l i) b ∧ bs_test Size i b = Ok (sbit l i) b ∧
  ∀ op new,
    op = bs_reset_at Size i ∧ new = false ∨
    (∃ v, op = bs_set_at Size i v ∧ new = v) ∨
    op = bs_flip_at Size i ∧ new = negb (sbit l i) →
    ∃ b' l', op b = Ok tt b' ∧ shows Size b' l' ∧ sbit l' i = new ∧
      ∀ j, j < Size → j ≠ i → sbit l' j = sbit l j.
Proof.
  intros Hb Hs Hi. assert (rep Size b l) as Hr by (by eapply reachable_shows_rep).
  split_and!; [by apply at_rep..|]. intros op new Hop.
  assert (∃ b' l', op b = Ok tt b' ∧ rep Size b' l' ∧ l' = <[i:=new]> l) as (b' & l' & E & Hr' & ->).
  { destruct Hop as [[-> ->]|[(v & -> & ->)|[-> ->]]].
    - destruct (reset_at_rep _ _ _ _ Hr Hi) as (? & ? & ?). eauto.
    - destruct (set_at_rep _ _ _ _ v Hr Hi) as (? & ? & ?). eauto.
    - destruct (flip_at_rep _ _ _ _ Hr Hi) as (b' & ? & Hr'). do 2 eexists. split_and!; [done|done|].
      apply sbit_ext; [by rewrite insert_length, alter_length|]. intros j Hj.
      destruct Hr. rewrite sbit_insert, !sbit_lookup by lia. case_decide as Ej.
      + subst j. rewrite list_lookup_alter. by destruct (lookup_lt_is_Some_2 l i ltac:(lia)) as [? ->].
      + by rewrite list_lookup_alter_ne. }
  destruct Hr. eexists _, _. split_and!; [done|by apply rep_shows| |].
  - rewrite sbit_insert by lia. by rewrite decide_True.
  - intros j Hj Hne. rewrite sbit_insert by lia. by rewrite decide_False.
Qed.

Example C05_case : ∃ b, reachable 64 10 b ∧ shows 10 b (replicate 10 true) ∧
  bs_flip_at 10 9 b = Ok tt [255; 1]%Z ∧ bs_reset_at 10 10 b = Exn OutOfRange b.
Proof.
  exists [255; 3]%Z. split_and!; try by vm_compute.
  - apply (reachable_by _ _ [BNew 0; BSetAll 0] 0). by vm_compute.
  - split; [done|]. intros i Hi. do 10 (destruct i as [|i]; [by vm_compute|]). lia.
Qed.

(** ** C06 *)
Theorem C06_bitset_from_int wbits Size value :
  (0 ≤ value < 2 ^ Z.of_nat wbits)%Z →
  ∃ b l, bs_from_int wbits Size value (bs_default Size) = Ok tt b ∧ shows Size b l ∧
    ∀ i, i < Size → sbit l i = Z.testbit value (Z.of_nat i).
Proof.
  intros Hv. destruct (from_int_rep wbits Size value) as (b & E & Hr).
  exists b, (s_of_int wbits Size value). split_and!; [done|by apply rep_shows|].
  intros i Hi. unfold s_of_int. rewrite sbit_lookup, list_lookup_fmap, lookup_seq_lt by done.
  cbn [fmap option_fmap option_map from_option id]. rewrite Nat.add_0_l.
  destruct (Nat.ltb_spec i wbits); [by rewrite andb_true_r|]. rewrite andb_false_r. symmetry.
  destruct (decide (value = 0%Z)) as [->|]; [apply Z.testbit_0_l|].
  apply Z.bits_above_log2; [lia|]. apply Z.lt_le_trans with (Z.of_nat wbits); [|lia].
  apply Z.log2_lt_pow2; lia.
Qed.

Example C06_case :
  bs_from_int 64 70 18446744073709551615 (bs_default 70) = Ok tt [255;255;255;255;255;255;255;255;0]%Z ∧
  bs_from_int 32 5 1000 (bs_default 5) = Ok tt [8]%Z.
Proof. by vm_compute. Qed.

(** ** C07 *)
(** [is_ok s]: no error flag is set. Whatever follows the text stays unread and unflagged. *)
Theorem C07_bitset_text_roundtrip wbits Size b b0 l s tl :
  1 ≤ Size → reachable wbits Size b → reachable wbits Size b0 → shows Size b l →
  ∃ out, bs_print Size b = Ok out b ∧ length out = Size ∧
    (is_ok s → rest s = out ++ tl →
     ∃ s', bs_extract Size (b0, s) = Ok tt (b, s') ∧ rest s' = tl ∧ is_ok s').
Proof.
  intros HS Hb Hb0 Hs. assert (rep Size b l) as Hr by (by eapply reachable_shows_rep).
  destruct (reachable_rep _ _ _ Hb0) as [l0 Hr0].
  exists (text l). split_and!.
  - by apply print_spec.
  - unfold text, chars. rewrite fmap_length, reverse_length. by destruct Hr.
  - intros Hok Hrest. assert (leading s []) as Hk by (unfold leading; by destruct (skipws s)).
    assert (length (reverse l) = Size) as Hl by (rewrite reverse_length; by destruct Hr).
    assert (denotes Size (reverse l) = l) as Hd.
    { unfold denotes. rewrite reverse_involutive, Hl, Nat.sub_diag. cbn. by rewrite app_nil_r. }
    unfold text in Hrest. destruct (reverse l) as [|d ds] eqn:Erev; [cbn in Hl; lia|].
    destruct (extract_digits Size [] d ds tl b0 l0 s) as (b' & Hr' & E); [done..|lia|lia|].
    rewrite Hl in E. replace (Size <? Size) with false in E by (symmetry; apply Nat.ltb_irrefl).
    cbn [andb] in E. rewrite Hd in Hr'. rewrite (rep_inj _ _ _ _ Hr' Hr) in E.
    eexists. split_and!; [done|done|]. by apply ok_after.
Qed.

Example C07_case :
  let s := IStream (text [true; false; true] ++ ["7"; "1"]%char) [] false false false true in
  bs_print 3 [5]%Z = Ok ["1"; "0"; "1"]%char [5]%Z ∧
  bs_extract 3 ([2]%Z, s) = Ok tt ([5]%Z, IStream ["7"; "1"]%char ["1"; "0"; "1"]%char false false false true).
Proof. by vm_compute. Qed.

(** ** C08 *)
(** Input = whitespace, digits, then something: either Size digits were read, or the next
    character is not a digit (so the digits are the longest prefix). *)
Theorem C08_bitset_extract wbits Size b s ws ds tl :
  reachable wbits Size b → is_ok s → leading s ws →
  rest s = ws ++ chars ds ++ tl → ds ≠ [] → length ds ≤ Size →
  (length ds = Size ∨ ∃ c tl', tl = c :: tl' ∧ ∀ d, c ≠ digit d) →
  ∃ b' s', bs_extract Size (b, s) = Ok tt (b', s') ∧
    shows Size b' (denotes Size ds) ∧ rest s' = tl ∧ is_ok s'.
Proof.
  intros Hb Hok Hws Hrest Hne Hlen Hstop. destruct (reachable_rep _ _ _ Hb) as [l Hr].
  destruct ds as [|d ds]; [done|].
  destruct (extract_digits Size ws d ds tl b l s) as (b' & Hr' & E); [done..| |].
  { destruct Hstop as [?|(c & tl' & -> & ?)]; [lia|intros _; by apply no_digit]. }
  assert ((length (d :: ds) <? Size) && (if tl then true else false) = false) as Ec.
  { destruct Hstop as [->|(c & tl' & -> & ?)]; [by rewrite Nat.ltb_irrefl|apply andb_false_r]. }
  rewrite Ec in E. eexists _, _. split_and!; [exact E|by apply rep_shows|done|by apply ok_after].
Qed.

Theorem C08_bitset_extract_nothing wbits Size b s ws c tl :
  1 ≤ Size → reachable wbits Size b → is_ok s → leading s ws →
  rest s = ws ++ c :: tl → (skipws s = true → c ∉ whitespace) → (∀ d, c ≠ digit d) →
  ∃ s', bs_extract Size (b, s) = Ok tt (b, s') ∧ rest s' = c :: tl ∧
    failbit s' = true ∧ eofbit s' = false ∧ badbit s' = false.
Proof.
  intros HS Hb Hok Hws Hrest Hc Hd.
  rewrite (extract_other Size ws c tl) by (done || lia || by apply no_digit).
  destruct Hok as (E1 & E2 & E3). eexists. split_and!; [done|done|..]; cbn; by rewrite ?E1, ?E2, ?E3.
Qed.

(** blank input: the bitset is unchanged and the stream failed at end of file *)
Theorem C08_bitset_extract_blank wbits Size b s :
  reachable wbits Size b → is_ok s → skipws s = true → Forall (λ c, c ∈ whitespace) (rest s) →
  ∃ s', bs_extract Size (b, s) = Ok tt (b, s') ∧ rest s' = [] ∧
    failbit s' = true ∧ eofbit s' = true ∧ badbit s' = false.
Proof. intros. rewrite extract_blank by done. eexists. by split_and!. Qed.
(** no input at all, for a stream that does not skip whitespace *)
Theorem C08_bitset_extract_end wbits Size b s :
  1 ≤ Size → reachable wbits Size b → is_ok s → skipws s = false → rest s = [] →
  ∃ s', bs_extract Size (b, s) = Ok tt (b, s') ∧ rest s' = [] ∧
    failbit s' = true ∧ eofbit s' = false ∧ badbit s' = false.
Proof. intros. rewrite extract_end by (done || lia). eexists. by split_and!. Qed.
(** a bitset without bits: only whitespace is read, and running into the end doing so is a failure *)
Theorem C08_bitset_extract_zero wbits b s ws tl :
  reachable wbits 0 b → is_ok s → leading s ws → rest s = ws ++ tl →
  match tl with [] => skipws s = false | c :: _ => skipws s = true → c ∉ whitespace end →
  ∃ s', bs_extract 0 (b, s) = Ok tt (b, s') ∧ rest s' = tl ∧ is_ok s'.
Proof.
  intros _ Hok Hws Hr Hc. unfold bs_extract. cbn [fst snd]. destruct tl as [|c tl].
  - unfold leading in Hws. rewrite Hc in Hws. subst ws. exists s. unfold sentry. rewrite (good_ok s Hok), Hc. by split_and!.
  - rewrite (sentry_spec ws c tl) by done. eexists. split_and!; [done|done|]. by apply ok_after.
Qed.
(** a stream that has failed or reached its end before: nothing is read *)
Theorem C08_bitset_extract_bad wbits Size b s :
  reachable wbits Size b → ¬ is_ok s →
  ∃ s', bs_extract Size (b, s) = Ok tt (b, s') ∧ rest s' = rest s ∧
    failbit s' = true ∧ eofbit s' = eofbit s ∧ badbit s' = badbit s.
Proof.
  intros _ Hs. rewrite extract_bad.
  - eexists. split; [done|]. unfold setstate. cbn. rewrite !orb_false_r. by rewrite orb_true_r.
  - unfold good. unfold is_ok in Hs. destruct (eofbit s), (failbit s), (badbit s); try done. by destruct Hs.
Qed.

Example C08_case :
  let s r := IStream r [] false false false true in
  bs_extract 4 ([15]%Z, s [" "; "1"; "0"; "x"]%char)
    = Ok tt ([2]%Z, IStream ["x"]%char ["0"; "1"; " "]%char false false false true) ∧
  bs_extract 4 ([15]%Z, s [" "; "x"]%char)
    = Ok tt ([15]%Z, IStream ["x"]%char [" "]%char false true false true) ∧
  bs_extract 4 ([15]%Z, IStream [" "; "1"]%char [] false false false false)
    = Ok tt ([15]%Z, IStream [" "; "1"]%char [] false true false false) ∧
  bs_extract 4 ([15]%Z, IStream [] [] false false false false) = Ok tt ([15]%Z, IStream [] [] false true false false) ∧
  bs_extract 4 ([15]%Z, IStream ["1"]%char [] true false false true) = Ok tt ([15]%Z, IStream ["1"]%char [] true true false true) ∧
  bs_extract 0 ([], s [" "; "1"]%char) = Ok tt ([], IStream ["1"]%char [" "]%char false false false true) ∧
  reachable 64 4 [15]%Z.
Proof.
  split_and!; try by vm_compute.
  apply (reachable_by _ _ [BNew 0; BSetAll 0] 0). by vm_compute.
Qed.

(** ** C09 (refuted by the code) *)
(** The digits are stored, but failbit is set whenever the input ends early. *)
Theorem C09_bitset_extract_eof_behaviour wbits Size b s ws ds :
  reachable wbits Size b → is_ok s → leading s ws →
  rest s = ws ++ chars ds → 1 ≤ length ds < Size →
  ∃ b' s', bs_extract Size (b, s) = Ok tt (b', s') ∧
    shows Size b' (denotes Size ds) ∧ rest s' = [] ∧ failbit s' = true ∧ eofbit s' = false.
Proof.
  intros Hb Hok Hws Hrest Hlen. destruct (reachable_rep _ _ _ Hb) as [l Hr].
  destruct ds as [|d ds]; [cbn in Hlen; lia|].
  destruct (extract_digits Size ws d ds [] b l s) as (b' & Hr' & E); [done..| |lia|done|].
  { by rewrite app_nil_r. }
  assert ((length (d :: ds) <? Size) = true) as Ec by (apply Nat.ltb_lt; lia).
  rewrite Ec in E. cbn [andb] in E. eexists _, _. split_and!; [exact E|by apply rep_shows|done|done|done].
Qed.

(** so the property fails: a reachable bitset, a well-formed input of 2 < 4 digits, failbit set *)
Theorem C09_bitset_extract_eof_refuted :
  ∃ Size b s ds b' s', reachable 64 Size b ∧ is_ok s ∧ skipws s = true ∧ rest s = chars ds ∧
    1 ≤ length ds < Size ∧ bs_extract Size (b, s) = Ok tt (b', s') ∧ failbit s' = true.
Proof.
  exists 4, [0]%Z, (IStream (chars [true; true]) [] false false false true), [true; true],
    [3]%Z, (IStream [] ["1"; "1"]%char false true false true).
  split_and!; try done; try (cbn; lia).
  apply (reachable_by _ _ [BNew 0] 0). by vm_compute.
Qed.

Example C09_case :
  bs_extract 4 ([0]%Z, IStream ["1"; "1"]%char [] false false false true)
    = Ok tt ([3]%Z, IStream [] ["1"; "1"]%char false true false true).
Proof. by vm_compute. Qed.

(** ** C10 (refuted by the code) *)
(** Reading through the non-const operator[] (or at) never finishes, however long it runs:
    operator bool calls itself. [fuel] bounds the number of nested activations. *)
Theorem C10_bitset_mutable_read_diverges Size fuel (w : bworld) x i b :
  w !! x = Some b → i < Size →
  ∃ r, subscript Size MutableLvalue x i w = Ok (SubRef r) w ∧ bs_at_ref Size x i w = Ok r w ∧
    ref_to_bool Size fuel r w = None ∧ ref_not Size fuel r w = None ∧
    ∀ r', ref_assign Size fuel r' r w = None.
Proof.
  intros Hx Hi. exists (BitRef x i).
  assert (ref_to_bool Size fuel (BitRef x i) w = None) as E by (apply ref_to_bool_diverges; eauto).
  unfold ref_not, ref_assign, bs_at_ref, subscript, bind, peek_bs. rewrite E, Hx.
  destruct (Nat.leb_spec Size i); [lia|]. by split_and!.
Qed.

Theorem C10_bitset_mutable_read_refuted :
  ∃ Size (w : bworld) x i b, w !! x = Some b ∧ reachable 64 Size b ∧ i < Size ∧ bs_index Size i b = Ok true b ∧
    ∀ fuel, ref_to_bool Size fuel (BitRef x i) w = None.
Proof.
  exists 8, {[0 := [8]%Z]}, 0, 3, [8]%Z. split_and!; try done; try lia.
  - apply (reachable_by _ _ [BNew 0; BSet 0 3 true] 0). by vm_compute.
  - intros fuel. apply ref_to_bool_diverges. by eexists.
Qed.

(** what does hold: a const bitset answers its bits, and is left alone *)
Theorem C10_const_partial Size (w : bworld) x i b l v :
  w !! x = Some b → shows Size b l → l !! i = Some v → subscript Size ConstLvalue x i w = Ok (SubBit v) w.
Proof.
  intros Hx [Hl Hs] Hi. unfold subscript, bind, on_bs. rewrite Hx, Hs by (rewrite <-Hl; by eapply lookup_lt_Some).
  rewrite insert_id by done. unfold ret, sbit. by rewrite (nth_lookup_Some _ _ _ _ Hi).
Qed.

Example C10_case :
  ref_to_bool 8 1000 (BitRef 0 3) {[0 := [8]%Z]} = None ∧
  match subscript 8 ConstLvalue 0 3 {[0 := [8]%Z]} with Ok (SubBit b) _ => b = true | _ => False end.
Proof. by vm_compute. Qed.

(** ** C11 (refuted by the code) *)
(** swap(a[i], b[i]) of two different bitsets returns without exchanging anything ... *)
Theorem C11_bitset_ref_swap_refuted :
  ∃ Size (w : bworld) x y i b1 b2,
    x ≠ y ∧ i < Size ∧ w !! x = Some b1 ∧ w !! y = Some b2 ∧
    bs_index Size i b1 = Ok true b1 ∧ bs_index Size i b2 = Ok false b2 ∧
    ∀ fuel, ref_swap Size fuel (BitRef x i) (BitRef y i) w = Some (Ok tt w).
Proof.
  exists 8, {[0 := [1]%Z; 1 := [0]%Z]}, 0, 1, 0, [1]%Z, [0]%Z.
  split_and!; try done; lia.
Qed.
(** ... and in fact swap never exchanges: if it returns, nothing changed. *)
Theorem C11_bitset_ref_swap_never Size fuel a b (w : bworld) r :
  is_Some (w !! r_self a) → ref_swap Size fuel a b w = Some r →
  r = Ok tt w ∧ r_index a = r_index b.
Proof. apply ref_swap_noop. Qed.

(** ** C12 *)
Theorem C12_bitset_ref_write wbits Size (os : list bop) rs (w : bworld) x i b l v :
  brun wbits Size os ∅ = Some (rs, w) → w !! x = Some b → shows Size b l → i < Size →
  (∃ b', ref_assign_bool Size (BitRef x i) v w = Ok tt (<[x:=b']> w) ∧ shows Size b' (<[i:=v]> l)) ∧
  (∃ b', ref_flip Size (BitRef x i) w = Ok tt (<[x:=b']> w) ∧ shows Size b' (<[i:=negb (sbit l i)]> l)).
Proof.
  intros Hrun Hx Hs Hi.
  assert (rep Size b l) as Hr. { eapply (reachable_shows_rep wbits); [|done]. by exists os, rs, w, x. }
  split.
  - destruct (set_at_rep _ _ _ _ v Hr Hi) as (b' & E & Hr'). exists b'. split; [|by apply rep_shows].
    unfold ref_assign_bool, noexcept. cbn [r_self r_index]. by rewrite (on_bs_ok _ _ _ _ _ _ Hx E).
  - destruct (C05_bitset_checked_in wbits Size b l i) as (_ & _ & Hop); [by exists os, rs, w, x|done|done|].
    destruct (Hop (bs_flip_at Size i) (negb (sbit l i))) as (b' & l' & E & Hs' & Hi' & Hj); [by right; right|].
    exists b'. split.
    + unfold ref_flip, noexcept. cbn [r_self r_index]. by rewrite (on_bs_ok _ _ _ _ _ _ Hx E).
    + assert (<[i:=negb (sbit l i)]> l = l') as ->; [|done]. destruct Hs as [Hl _], Hs' as [Hl' _].
      apply sbit_ext; [rewrite insert_length; lia|]. intros j. rewrite insert_length. intros Hjl.
      rewrite sbit_insert by lia. case_decide; [by subst|]. symmetry. apply Hj; lia.
Qed.

Example C12_case :
  match brun 64 9 [BNew 0; BNew 1; BSetAll 1] ∅ with
  | Some (_, w) =>
      match ref_flip 9 (BitRef 1 8) w with
      | Ok _ w' => w !! 1 = Some [255; 1]%Z ∧ w' !! 0 = Some [0; 0]%Z ∧ w' !! 1 = Some [255; 0]%Z
      | _ => False
      end
  | None => False
  end.
Proof. by vm_compute. Qed.

(** ** C13 *)
Theorem C13_bitset_hash_equal wbits Size a b l :
  reachable wbits Size a → reachable wbits Size b → shows Size a l → shows Size b l →
  bs_hash wbits Size a = bs_hash wbits Size b.
Proof.
  intros Ha Hb Hsa Hsb. f_equal. eapply rep_inj; by eapply reachable_shows_rep.
Qed.

Theorem C13_bitset_hash_value wbits Size b l :
  reachable wbits Size b → shows Size b l → Size ≠ 0 →
  (wbits = 32 → bs_hash 32 Size b = fnv1a 16777619 (2 ^ 32) 2166136261 (pack (bytes_for Size) l)) ∧
  (wbits = 64 → bs_hash 64 Size b = fnv1a 1099511628211 (2 ^ 64) 14695981039346656037 (pack (bytes_for Size) l)).
Proof.
  intros Hb Hs HS. assert (rep Size b l) as Hr by (by eapply reachable_shows_rep).
  rewrite <-(rep_pack Size b l) by done.
  split; intros _; unfold bs_hash; (destruct (Nat.eqb_spec Size 0); [done|]); apply fnv_fold.
Qed.

Example C13_case : bs_hash 32 16 [97; 98]%Z = 1294271946%Z ∧ bytes_for 16 = 2 ∧
  pack 2 [true;false;false;false;false;true;true;false; false;true;false;false;false;true;true;false] = [97; 98]%Z.
Proof. by vm_compute. Qed.

Print Assumptions C01_bitset_history.
Print Assumptions C01_reachable_shows.
Print Assumptions C02_bitset_queries.
Print Assumptions C02_bitset_equality.
Print Assumptions C03_bitset_shift_left.
Print Assumptions C03_bitset_shift_right.
Print Assumptions C04_bitset_bitwise.
Print Assumptions C05_bitset_checked_out.
Print Assumptions C05_bitset_checked_in.
Print Assumptions C06_bitset_from_int.
Print Assumptions C07_bitset_text_roundtrip.
Print Assumptions C08_bitset_extract.
Print Assumptions C08_bitset_extract_nothing.
Print Assumptions C08_bitset_extract_blank.
Print Assumptions C08_bitset_extract_end.
Print Assumptions C08_bitset_extract_bad.
Print Assumptions C08_bitset_extract_zero.
Print Assumptions C09_bitset_extract_eof_behaviour.
Print Assumptions C09_bitset_extract_eof_refuted.
Print Assumptions C10_bitset_mutable_read_diverges.
Print Assumptions C10_bitset_mutable_read_refuted.
Print Assumptions C10_const_partial.
Print Assumptions C11_bitset_ref_swap_refuted.
Print Assumptions C11_bitset_ref_swap_never.
Print Assumptions C12_bitset_ref_write.
Print Assumptions C13_bitset_hash_equal.
Print Assumptions C13_bitset_hash_value.
