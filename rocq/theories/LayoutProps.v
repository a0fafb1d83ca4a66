(** C69 layouts are the documented ones, C70 alignment, C71 standard-layout types *)
From stdpp Require Import prelude strings.
From Verif Require Import LayoutModel LayoutSpec LayoutProofs.
Local Open Scope N_scope.

Definition Int32 : ty := Opaque 4 4 true.
Definition Int64 : ty := Opaque 8 8 true.
Definition x86_64 : Target := {| word := 8; max_align := 16 |}.
Lemma x86_64_ok : @target_ok x86_64.
Proof. split; [by exists 3|by exists 4]. Qed.
Lemma int32_wf : wf Int32.
Proof. split_and!; [by exists 2|done|by exists 1]. Qed.
Lemma int64_wf : wf Int64.
Proof. split_and!; [by exists 3|done|by exists 1]. Qed.

(** * C69 *)
(** The members of every class lie inside it, in the order of their declaration and behind the
    data of the base class, and do not overlap; they are aligned as far as #pragma pack allows. *)
Theorem C69_class_members nm p b ms :
  wf (Cls nm p b ms) →
  let t := Cls nm p b ms in
  in_order (sizeof t) (match b with Some b => dsize (lay b) | None => 0 end) (zip (offsets (lay t)) (sizeof <$> ms)) ∧
  length (offsets (lay t)) = length ms ∧
  (alignof t | sizeof t) ∧
  ∀ i m o, ms !! i = Some m → member_offset t i = Some o →
    (match p with Some p => N.min p (alignof m) | None => alignof m end | o).
Proof.
  intros Hwf t. destruct (class_in_order nm p b ms Hwf) as (H1 & H2 & H3). split_and!; [exact H2|done| |].
  - by apply lay_wf.
  - intros i m o Hm Ho. destruct (H3 i m o Hm Ho) as [H _]. by destruct p.
Qed.
Example C69_class_members_case :
  wf (Cls "struct" None (Some (Cls "empty" None None [])) [UChar; Int64; Int32]) ∧
  offsets (lay (Cls "struct" None (Some (Cls "empty" None None [])) [UChar; Int64; Int32])) = [0; 8; 16] ∧
  sizeof (Cls "struct" None (Some (Cls "empty" None None [])) [UChar; Int64; Int32]) = 24 ∧
  offsets (lay (Cls "struct" (Some 2) None [UChar; Int64; Int32])) = [0; 2; 10] ∧
  sizeof (Cls "struct" (Some 2) None [UChar; Int64; Int32]) = 14.
Proof.
  split_and!; [|done..]. cbn. split_and!; try done; try (by exists 0); try (by exists 3); try (by exists 2); try by exists 1.
Qed.

(** optional<T>: the value, then one byte *)
Theorem C69_optional t : wf t →
  sizeof (optional_t t) = sizeof t + 1 ∧ alignof (optional_t t) = 1 ∧
  member_offset (optional_t t) 0 = Some 0 ∧ member_offset (Uni (Some 1) [t]) 0 = Some 0 ∧
  member_offset (optional_t t) 1 = Some (sizeof t).
Proof.
  intros Ht. destruct (optional_lay t Ht) as (E1 & E2 & E3 & E4 & _). unfold member_offset. rewrite E3, E4. done.
Qed.
Example C69_optional_case : wf Int64 ∧ sizeof (optional_t Int64) = 9 ∧ sizeof (optional_t (optional_t Int64)) = 10.
Proof. split; [apply int64_wf|done]. Qed.

(** variant<Ts...>: all alternatives at the same place, then one byte. The static_assert holds if
    the largest size is a multiple of the largest alignment. *)
Theorem C69_variant ts m : ts ≠ [] → Forall wf ts → is_max m (sizeof <$> ts) → variant_compiles ts = true →
  sizeof (variant_t ts) = m + 1 ∧ alignof (variant_t ts) = 1 ∧
  member_offset (variant_t ts) 0 = Some 0 ∧ member_offset (variant_t ts) 1 = Some m ∧
  ∀ i, (i < length ts)%nat → variant_offset ts i = Some 0.
Proof.
  intros Hne Hts Hm Hc. apply N.eqb_eq in Hc. rewrite (max_sizeof_max_size ts) in Hc by done.
  rewrite (is_max_unique _ _ _ Hm (max_size_is_max ts Hne Hts)).
  destruct (variant_lay ts Hts) as (E1 & E2 & E3). unfold member_offset. rewrite E3, E2, Hc. split_and!; try done.
  intros i Hi. by apply variant_offset_eq.
Qed.
Theorem C69_variant_compiles ts m a : ts ≠ [] → Forall wf ts → is_max m (sizeof <$> ts) → is_max a (alignof <$> ts) →
  variant_compiles ts = true ↔ (a | m).
Proof.
  intros Hne Hts Hm Ha. unfold variant_compiles. rewrite N.eqb_eq, (max_sizeof_max_size ts) by done.
  destruct (variant_storage_lay ts Hts) as [-> _].
  rewrite (is_max_unique _ _ _ Hm (max_size_is_max ts Hne Hts)), (is_max_unique _ _ _ Ha (max_alignof_is_max ts Hne Hts)).
  apply round_up_same_iff, pow2_pos. by apply max_alignof_pow2.
Qed.
Example C69_variant_case :
  Forall wf [Int32; Int64; UChar] ∧ is_max 8 (sizeof <$> [Int32; Int64; UChar]) ∧ variant_compiles [Int32; Int64; UChar] = true ∧
  is_max 5 (sizeof <$> [Int32; Arr UChar 5]) ∧ is_max 4 (alignof <$> [Int32; Arr UChar 5]) ∧ variant_compiles [Int32; Arr UChar 5] = false.
Proof.
  split_and!; try done.
  - repeat constructor; (try by exists 2); (try by exists 3); (try by exists 1); by exists 0.
  - split; [right; left|]. repeat constructor; by vm_compute.
  - split; [right; left|]. repeat constructor; by vm_compute.
  - split; [left|]. repeat constructor; by vm_compute.
Qed.

(** array<T, N>: N values and nothing else; array<T, 0>: a pointer *)
Theorem C69_array `{Target} t n : wf t → 0 < n →
  sizeof (array_t t n) = n * sizeof t ∧ alignof (array_t t n) = alignof t ∧ member_offset (array_t t n) 0 = Some 0.
Proof.
  intros Ht Hn. unfold array_t. destruct (decide (n = 0)); [lia|]. unfold sizeof at 1, alignof at 1, member_offset.
  rewrite lay_wrap by done. done.
Qed.
Theorem C69_array_empty `{Target} t : target_ok → sizeof (array_t t 0) = word ∧ alignof (array_t t 0) = word.
Proof.
  intros [Hw _]. unfold array_t. destruct (decide (0 = 0)); [|done]. unfold sizeof, alignof.
  rewrite lay_wrap; [done|]. cbn. split_and!; [done|by apply pow2_pos|apply N.divide_refl].
Qed.
(** bitset<N>: as many bytes as are needed for N bits, at least one *)
Theorem C69_bitset n :
  alignof (bitset_t n) = 1 ∧ 8 * sizeof (bitset_t n) < N.max n 1 + 8 ∧ N.max n 1 ≤ 8 * sizeof (bitset_t n).
Proof.
  unfold bitset_t. assert (wf UChar) as Hu by (split_and!; [apply pow2_1|done|apply N.divide_refl]).
  pose proof (N.div_mod n 8 ltac:(lia)). pose proof (N.mod_lt n 8 ltac:(lia)).
  destruct (decide (n = 0)) as [->|Hn].
  - unfold alignof, sizeof. rewrite lay_wrap by done. cbn. lia.
  - set (k := n / 8 + _). assert (8 * k < n + 8 ∧ n ≤ 8 * k) as [Hk1 Hk2].
    { subst k. destruct (decide (n mod 8 = 0)); revert H H0; generalize dependent (n mod 8); generalize (n / 8); intros; lia. }
    clearbody k. unfold alignof, sizeof. rewrite lay_wrap by (split; [done|lia]). cbn [size align sizeof alignof lay UChar]. clear H H0. split_and!; lia.
Qed.

Section fixed.
Context `{Target} (Hok : target_ok).
Lemma ptr_wf : wf Ptr.
Proof. split_and!; [apply Hok|apply pow2_pos, Hok|apply N.divide_refl]. Qed.
Lemma word_pos : 0 < word.
Proof. apply pow2_pos, Hok. Qed.
Lemma uniform nm n : (0 < n)%nat →
  lay (Cls nm None None (replicate n Ptr)) = Lay (N.of_nat n * word) word (N.of_nat n * word) (packed_from 0 (replicate n word)) [].
Proof.
  intros Hn. rewrite (lay_uniform _ _ word).
  - rewrite fmap_replicate. change (sizeof Ptr) with word.
    assert (sum (replicate n word) = N.of_nat n * word) as ->; [|done].
    clear. induction n as [|n IH]; [done|]. cbn [replicate sum foldr]. fold (sum (replicate n word)). rewrite IH. lia.
  - apply Hok.
  - by destruct n; [lia|].
  - apply Forall_replicate, ptr_wf.
  - by apply Forall_replicate.
  - intros m Hm. apply elem_of_replicate in Hm as [-> _]. apply N.divide_refl.
Qed.
End fixed.

(** The views, references and owners have the sizes the header comments and the tests state, and
    their pointers and sizes directly follow each other. *)
Theorem C69_array_ref `{Target} : target_ok →
  sizeof array_ref_t = 2 * word ∧ alignof array_ref_t = word ∧ offsets (lay array_ref_t) = [0; word].
Proof. intros Hok. unfold sizeof, alignof, array_ref_t. change [Ptr; Ptr] with (replicate 2 Ptr). by rewrite (uniform Hok) by lia. Qed.
Theorem C69_string_ref `{Target} : target_ok →
  sizeof string_ref_t = 2 * word ∧ alignof string_ref_t = word ∧ offsets (lay string_ref_t) = [0; word].
Proof. intros Hok. unfold sizeof, alignof, string_ref_t. change [Ptr; Ptr] with (replicate 2 Ptr). by rewrite (uniform Hok) by lia. Qed.
Theorem C69_optional_ref `{Target} : target_ok →
  sizeof optional_ref_t = word ∧ alignof optional_ref_t = word ∧ offsets (lay optional_ref_t) = [0].
Proof.
  intros Hok. unfold sizeof, alignof, optional_ref_t. change [Ptr] with (replicate 1 Ptr). rewrite (uniform Hok) by lia. cbn [size align offsets replicate packed_from N.of_nat]. split_and!; [lia|done|done].
Qed.
Theorem C69_vector `{Target} : target_ok →
  sizeof vector_t = 4 * word ∧ alignof vector_t = word ∧ offsets (lay vector_t) = [0] ∧
  offsets (lay (Cls "vector::storage_t" None None [Ptr; Ptr; SizeT; SizeT])) = [0; word; 2 * word; 3 * word].
Proof.
  intros Hok. pose proof (uniform Hok "vector::storage_t" 4 ltac:(lia)) as E. unfold sizeof, alignof, vector_t.
  rewrite lay_wrap.
  - unfold sizeof, alignof. change [Ptr; Ptr; SizeT; SizeT] with (replicate 4 Ptr). rewrite E. cbn [size align offsets packed_from replicate].
    split_and!; try done. replace (2 * word) with (0 + word + word) by lia. by replace (3 * word) with (0 + word + word + word) by lia.
  - pose proof (ptr_wf Hok). cbn [wf map foldr pack_ok]. done.
Qed.
Theorem C69_string `{Target} : target_ok →
  sizeof string_t = 4 * word ∧ alignof string_t = word ∧ offsets (lay string_t) = [0] ∧
  offsets (lay (Cls "string::storage_t" None None [Ptr; Uni None [sso_t; heap_t]])) = [0; word] ∧
  offsets (lay (Uni None [sso_t; heap_t])) = [0; 0] ∧
  offsets (lay sso_t) = [0; 1] ∧ sizeof sso_t = 3 * word ∧
  offsets (lay heap_t) = [0; word; 2 * word].
Proof.
  intros Hok. pose proof (word_pos Hok) as Hpos. pose proof (ptr_wf Hok) as Hptr.
  assert (wf UChar) as Hu by (split_and!; [apply pow2_1|done|apply N.divide_refl]).
  assert (wf (Arr UChar (sso_size + 1))) as Hbuf by (split; [done|lia]).
  assert (wf heap_t) as Hheap by (cbn [wf map foldr pack_ok heap_t]; done).
  assert (wf sso_t) as Hsso by (cbn [wf map foldr pack_ok sso_t]; done).
  assert (wf (Uni None [sso_t; heap_t])) as Huni by (cbn [wf map foldr pack_ok]; done).
  assert (lay heap_t = Lay (3 * word) word (3 * word) [0; word; 2 * word] []) as Eh.
  { unfold heap_t. change [Ptr; SizeT; SizeT] with (replicate 3 Ptr). rewrite (uniform Hok) by lia.
    cbn [replicate packed_from N.of_nat]. by replace (2 * word) with (0 + word + word) by lia. }
  assert (lay sso_t = Lay (3 * word) 1 (3 * word) [0; 1] []) as Es.
  { unfold sso_t. rewrite (lay_uniform _ _ 1).
    - assert (sizeof (Arr UChar (sso_size + 1)) = 3 * word - 1) as E by (unfold sizeof, sso_size; cbn [lay size UChar]; lia).
      cbn [fmap list_fmap]. rewrite E. change (sizeof UChar) with 1. cbn [sum foldr packed_from]. f_equal; lia.
    - apply pow2_1.
    - done.
    - constructor; [done|]. constructor; [done|]. constructor.
    - constructor; [done|]. constructor; [|done]. split; [done|]. cbn. clear. induction (seq 0 _) as [|x l IH]; done.
    - intros m _. apply N.divide_1_l. }
  assert (lay (Uni None [sso_t; heap_t]) = Lay (3 * word) word (3 * word) [0; 0] []) as Eu.
  { cbn [lay map]. fold (lay sso_t) (lay heap_t). rewrite Es, Eh. cbn [fmap list_fmap foldr size align empties packed concat app].
    replace (N.max 1 (N.max word 1)) with word by lia.
    rewrite round_up_same; [|done|]. 2: { exists 3. lia. }
    f_equal; lia. }
  assert (lay (Cls "string::storage_t" None None [Ptr; Uni None [sso_t; heap_t]]) = Lay (4 * word) word (4 * word) [0; word] []) as Est.
  { rewrite (lay_uniform _ _ word).
    - cbn [fmap list_fmap]. unfold sizeof. rewrite Eu. cbn [size sum foldr packed_from lay Ptr]. f_equal; lia.
    - apply Hok.
    - done.
    - constructor; [done|]. constructor; [done|]. constructor.
    - constructor; [done|]. constructor; [|done]. unfold alignof. by rewrite Eu.
    - intros m Hm. apply elem_of_cons in Hm as [->|Hm]; [apply N.divide_refl|]. apply elem_of_list_singleton in Hm as ->.
      unfold sizeof. rewrite Eu. exists 3. cbn [size]. lia. }
  unfold sizeof, alignof, string_t. rewrite lay_wrap by (cbn [wf map foldr pack_ok]; done).
  unfold sizeof, alignof. rewrite Est, Eu, Es, Eh. done.
Qed.
Theorem C69_function_ref `{Target} : target_ok →
  sizeof function_ref_t = 2 * word ∧ alignof function_ref_t = word ∧ offsets (lay function_ref_t) = [0; word].
Proof.
  intros Hok. pose proof (word_pos Hok) as Hpos. pose proof (ptr_wf Hok) as Hptr.
  assert (lay (Uni None [Ptr; Ptr]) = Lay word word word [0; 0] []) as Eu.
  { cbn [lay map Ptr]. cbn [fmap list_fmap foldr size align empties packed concat app].
    replace (N.max word (N.max word 1)) with word by lia.
    rewrite round_up_same; [|done|]. 2: { exists 1. lia. }
    f_equal; lia. }
  set (st := Cls "internal_function_ref::storage_t" None None [Uni None [Ptr; Ptr]]).
  assert (lay st = Lay word word word [0] []) as Es.
  { unfold st. rewrite lay_wrap by (cbn [wf map foldr pack_ok]; done). unfold sizeof, alignof. by rewrite Eu. }
  unfold sizeof, alignof, function_ref_t. fold st. rewrite lay_cls. unfold body.
  rewrite (places_fit _ word).
  - cbn [map fmap list_fmap size align dsize offsets empties]. rewrite Es.
    set (l := start None _). assert (dsize l = 0) as El by done. assert (align l = 1) as El' by done. assert (offsets l = []) as El'' by done.
    rewrite El, El', El''. cbn [size sum foldr packed_from lay Ptr app]. replace (N.max 1 word) with word by lia.
    replace (N.max 1 _) with (2 * word) by lia. rewrite round_up_same; [|done|by exists 2]. done.
  - done.
  - cbn [map]. rewrite Es. constructor; [|constructor; [|done]]; split_and!; try done; apply N.divide_refl.
  - apply N.divide_0_r.
Qed.
Theorem C69_variant_ref `{Target} n : target_ok → (0 < n)%nat →
  sizeof (variant_ref_t n) = 2 * word ∧ alignof (variant_ref_t n) = word ∧
  offsets (lay (variant_ref_t n)) = [0; word] ∧ sizeof (variant_ref_storage n) = word.
Proof.
  intros Hok Hn. pose proof (word_pos Hok) as Hpos. pose proof (ptr_wf Hok) as Hptr. destruct n as [|n]; [lia|]. clear Hn.
  assert (∀ n, wf (variant_ref_storage n)) as Hwf by (clear -Hptr; intros n; induction n as [|n IH]; cbn [wf variant_ref_storage map foldr pack_ok]; done).
  assert (∀ n, sizeof (variant_ref_storage n) ≤ word ∧ alignof (variant_ref_storage n) ≤ word ∧
    sizeof (variant_ref_storage (S n)) = word ∧ alignof (variant_ref_storage (S n)) = word) as Hst.
  { assert (∀ n, sizeof (variant_ref_storage n) ≤ word → alignof (variant_ref_storage n) ≤ word →
      sizeof (variant_ref_storage (S n)) = word ∧ alignof (variant_ref_storage (S n)) = word) as Hstep.
    { clear n. intros n Hs Ha. cbn [variant_ref_storage]. unfold sizeof, alignof. rewrite lay_wrap.
      2: { pose proof (Hwf n). cbn [wf variant_ref_storage map foldr pack_ok]. done. }
      unfold sizeof, alignof in Hs, Ha |- *. cbn [lay map size align Ptr].
      cbn [fmap list_fmap foldr size align packed]. replace (N.max word (N.max _ 1)) with word by lia.
      split; [|done]. rewrite round_up_same; [lia|done|]. exists 1. lia. }
    clear n. intros n. induction n as [|n (H1 & H2 & H3 & H4)].
    - assert (sizeof (variant_ref_storage 0) = 1) as E1 by done. assert (alignof (variant_ref_storage 0) = 1) as E2 by done.
      split_and!; try lia; apply Hstep; lia.
    - rewrite H3, H4. split_and!; try lia; apply Hstep; lia. }
  destruct (Hst n) as (_ & _ & Es & Ea). split_and!; [..|done];
  unfold sizeof, alignof, variant_ref_t; rewrite lay_cls; unfold body; cbn [map foldl start];
  (rewrite (place_fits _ (Lay 0 1 0 [] [])); [|fold (alignof (variant_ref_storage (S n))); rewrite Ea; cbn [packed]; done|apply N.divide_0_r|by left]);
  fold (alignof (variant_ref_storage (S n))) (sizeof (variant_ref_storage (S n))); rewrite Es, Ea; cbn [align dsize size offsets empties packed app];
  (rewrite place_fits; [|cbn; done|cbn; apply N.divide_refl|by right]); cbn [align dsize size offsets empties packed lay SizeT app].
  - replace (N.max (N.max 1 word) word) with word by lia. rewrite round_up_same; [lia|done|]. exists 2. lia.
  - lia.
  - done.
Qed.
Example C69_fixed_case :
  @target_ok x86_64 ∧ sizeof (@string_t x86_64) = 32 ∧ sizeof (@vector_t x86_64) = 32 ∧ sizeof (@function_ref_t x86_64) = 16 ∧
  sizeof (@variant_ref_t x86_64 3) = 16 ∧ sizeof (@array_t x86_64 Int32 10) = 40 ∧ sizeof (@array_t x86_64 Int32 0) = 8 ∧
  sizeof (bitset_t 9) = 2.
Proof. split; [apply x86_64_ok|]. by vm_compute. Qed.

(** The full claim for tuple is that it consists of its components and nothing else,
    [sizeof (tuple_t ts) = N.max 1 (sum (sizeof <$> ts))]. It is false if the last component is itself
    a tuple (or starts with one): its empty base class storage_t<> and that of the component
    may not have the same address. *)
Theorem C69_tuple_refuted t : wf t →
  sizeof (tuple_t [tuple_t [t]]) ≠ N.max 1 (sum (sizeof <$> [tuple_t [t]])).
Proof.
  intros Ht. destruct (tuple_lay [t]) as (_ & E & _ & Hin); [by repeat constructor|].
  assert (wf (tuple_t [t])) as Hw.
  { cbn [tuple_t tuple_storage wf map foldr pack_ok]. split_and!; try done. apply pow2_1. }
  destruct (tuple_lay [tuple_t [t]]) as (_ & -> & _ & _); [by constructor|].
  unfold extra. cbn [last]. destruct (decide _); [|done]. cbn [fmap list_fmap sum foldr].
  assert (0 < sizeof (tuple_t [t])) by (by apply lay_wf). lia.
Qed.
(** missing: tuples whose last component starts with a tuple *)
Theorem C69_tuple_partial ts : Forall wf ts → (∀ t, last ts = Some t → no_tuple t) →
  alignof (tuple_t ts) = 1 ∧
  sizeof (tuple_t ts) = N.max 1 (sum (sizeof <$> ts)) ∧
  member_offset (tuple_t ts) 0 = Some 0 ∧
  ∀ i, (i < length ts)%nat → tuple_offset ts i = Some (sum (drop (S i) (sizeof <$> ts))).
Proof.
  intros Hts Hlast. destruct (tuple_lay ts Hts) as (Ha & Hs & Ho & _).
  assert (extra ts = 0) as E.
  { unfold extra. destruct (last ts) as [t|]; [|done]. destruct (decide _) as [Hin|]; [|done].
    by apply no_tuple_empties in Hin; [|apply Hlast]. }
  rewrite E, N.add_0_r in Hs. split_and!; try done. intros i Hi. by rewrite tuple_offset_eq, E by done.
Qed.
Example C69_tuple_case :
  Forall wf [Int64; UChar; Int32] ∧ no_tuple Int32 ∧ sizeof (tuple_t [Int64; UChar; Int32]) = 13 ∧
  tuple_offset [Int64; UChar; Int32] 0 = Some 5 ∧
  sizeof (tuple_t [UChar; tuple_t [Int32]]) = 6 ∧ sizeof (tuple_t [tuple_t [Int32]; UChar]) = 5.
Proof.
  split_and!; try done. repeat constructor; (try by exists 3); (try by exists 2); (try by exists 1); by exists 0.
Qed.
(** In every tuple the components, from the last to the first, follow each other without gaps and
    overlaps and fill it to the end; a byte is lost at most at its start. *)
Theorem C69_tuple_components ts : Forall wf ts → ts ≠ [] →
  ∃ lost, lost ≤ 1 ∧ sizeof (tuple_t ts) = lost + sum (sizeof <$> ts) ∧
  ∀ i, (i < length ts)%nat →
    tuple_offset ts i = Some (lost + sum (drop (S i) (sizeof <$> ts))).
Proof.
  intros Hts Hne. exists (extra ts). destruct (tuple_lay ts Hts) as (_ & Hs & _ & _).
  split_and!.
  - unfold extra. repeat case_match; lia.
  - destruct ts as [|t ts]; [done|]. pose proof (sum_pos t ts Hts). lia.
  - intros i Hi. by apply tuple_offset_eq.
Qed.

(** * C70 *)
(** The full claim is that the reference to a contained value is aligned for its type wherever the
    container may be placed. It fails for every optional, variant and tuple of a type whose alignment
    exceeds one: these containers themselves have alignment one. *)
Theorem C70_optional_refuted t : wf t → 1 < alignof t → ∃ a, may_live (optional_t t) a ∧ ¬ may_live t (a + 0).
Proof.
  intros Ht Ha. destruct (optional_lay t Ht) as (E & _). exists 1. unfold may_live. rewrite E. split; [apply N.divide_1_l|].
  intros H. apply N.divide_1_r in H. lia.
Qed.
Theorem C70_variant_refuted ts i t o : Forall wf ts → ts !! i = Some t → variant_offset ts i = Some o → 1 < alignof t →
  ∃ a, may_live (variant_t ts) a ∧ ¬ may_live t (a + o).
Proof.
  intros Hts Hi Ho Ha. destruct (variant_lay ts Hts) as (E & _). rewrite variant_offset_eq in Ho; [|done|by eapply lookup_lt_Some].
  injection Ho as <-. exists 1. unfold may_live. rewrite E. split; [apply N.divide_1_l|].
  intros H. apply N.divide_1_r in H. lia.
Qed.
Theorem C70_tuple_refuted ts i t o : Forall wf ts → ts !! i = Some t → tuple_offset ts i = Some o → 1 < alignof t →
  ∃ a, may_live (tuple_t ts) a ∧ ¬ may_live t (a + o).
Proof.
  intros Hts Hi Ho Ha. destruct (tuple_lay ts Hts) as (E & _). unfold may_live. rewrite E.
  destruct (decide (o mod alignof t = 0)) as [H|H]; (rewrite N.mod_divide in H by lia).
  - exists 1. split; [apply N.divide_1_l|]. intros H'. rewrite N.add_comm in H'.
    apply N.divide_add_cancel_r in H'; [|done]. apply N.divide_1_r in H'. lia.
  - exists 0. split; [apply N.divide_0_r|done].
Qed.
(** whatever the address of an array, of two adjacent optionals in it one is misaligned *)
Theorem C70_array_of_optionals_refuted `{Target} t n a i : wf t → 1 < alignof t → i + 1 < n →
  ¬ (may_live t (a + i * sizeof (optional_t t)) ∧ may_live t (a + (i + 1) * sizeof (optional_t t))).
Proof.
  intros Ht Ha Hn [H1 H2]. destruct (optional_lay t Ht) as (_ & E & _). unfold may_live in *. rewrite E in *.
  replace (a + (i + 1) * (sizeof t + 1)) with (a + i * (sizeof t + 1) + (sizeof t + 1)) in H2 by lia.
  apply N.divide_add_cancel_r in H2; [|done]. apply lay_wf in Ht as [_ _ Hd _ _]. fold (sizeof t) (alignof t) in Hd.
  apply N.divide_add_cancel_r in H2; [|done]. apply N.divide_1_r in H2. lia.
Qed.
(** the memory of a vector is aligned for [max_align] only *)
Theorem C70_vector_overaligned_refuted `{Target} t : target_ok → wf t → max_align < alignof t →
  ∃ p, (max_align | p) ∧ ¬ may_live t p.
Proof.
  intros [_ Hm] Ht Ha. exists max_align. split; [apply N.divide_refl|]. intros H'. apply N.divide_pos_le in H'; [|by apply pow2_pos]. lia.
Qed.
Example C70_refuted_case :
  wf Int32 ∧ 1 < alignof Int32 ∧ may_live (optional_t Int32) 1 ∧ ¬ may_live Int32 1 ∧
  variant_offset [UChar; Int32] 1 = Some 0 ∧ tuple_offset [Int32; UChar] 0 = Some 1 ∧
  wf (Opaque 64 64 true) ∧ @max_align x86_64 < alignof (Opaque 64 64 true).
Proof.
  split_and!; try done; try (by exists 2); try (by exists 1); try by exists 6.
  - apply int32_wf.
  - intros H. apply N.divide_1_r in H. done.
  - split_and!; [by exists 6|done|by exists 1].
Qed.
(** What does hold: values of alignment one, *)
Theorem C70_bytes_partial t a : alignof t = 1 → may_live t a.
Proof. intros E. unfold may_live. rewrite E. apply N.divide_1_l. Qed.
(** members of all classes outside of the #pragma pack (array, bitset, string, vector, the references), *)
Theorem C70_members_partial nm b ms i m o a : wf (Cls nm None b ms) →
  ms !! i = Some m → member_offset (Cls nm None b ms) i = Some o → may_live (Cls nm None b ms) a → may_live m (a + o).
Proof.
  intros Hwf Hi Ho Ha. destruct (class_in_order _ _ _ _ Hwf) as (_ & _ & H). destruct (H i m o Hi Ho) as [H1 H2]. cbn [packed] in H1, H2.
  apply N.divide_add_r; [|done]. by etrans.
Qed.
(** elements of arrays, *)
Theorem C70_array_partial `{Target} t n a i : wf t → i < n → may_live (array_t t n) a → may_live t (a + i * sizeof t).
Proof.
  intros Ht Hi Ha. destruct (C69_array t n Ht ltac:(lia)) as (_ & E & _). unfold may_live in *. rewrite E in Ha.
  apply N.divide_add_r; [done|]. apply N.divide_mul_r. by apply lay_wf.
Qed.
(** and elements of vectors that are not over-aligned *)
Theorem C70_vector_partial `{Target} t p i : target_ok → wf t → alignof t ≤ max_align → (max_align | p) →
  may_live t (p + i * sizeof t).
Proof.
  intros [_ Hm] Ht Ha Hp. pose proof (lay_wf _ Ht) as [Hta _ Hd _ _]. apply N.divide_add_r.
  - etrans; [|done]. by apply pow2_divide.
  - by apply N.divide_mul_r.
Qed.
Example C70_partial_case :
  wf (@string_t x86_64) ∧ may_live (@string_t x86_64) 16 ∧ may_live (@array_t x86_64 Int32 3) 4 ∧ alignof Int32 ≤ @max_align x86_64.
Proof.
  split_and!; try done.
  - cbn. split_and!; try done; try (by exists 3); try (by exists 1); by exists 0.
  - by exists 2.
  - by exists 1.
Qed.

(** * C71 *)
(** The static_asserts demand standard-layout element types. Every type of the library with such
    element types is one, except for tuples of several components. *)
Theorem C71_standard_layout `{Target} t ts n k : standard_layout t = true → Forall (λ t, standard_layout t = true) ts →
  standard_layout (array_t t k) = true ∧ standard_layout (optional_t t) = true ∧ standard_layout (variant_t ts) = true ∧
  standard_layout (variant_ref_t n) = true ∧ standard_layout (bitset_t k) = true ∧
  standard_layout array_ref_t = true ∧ standard_layout string_ref_t = true ∧ standard_layout optional_ref_t = true ∧
  standard_layout function_ref_t = true ∧ standard_layout string_t = true ∧ standard_layout vector_t = true.
Proof.
  intros Ht Hts. split_and!; try done.
  - unfold array_t. destruct (decide _); cbn; by rewrite ?Ht.
  - cbn. by rewrite Ht.
  - cbn. rewrite !andb_true_r. induction Hts as [|u us Hu Hus IH]; [done|]. cbn. by rewrite Hu, IH.
  - cbn. rewrite !andb_true_r. induction n as [|n IH]; [done|]. cbn. by rewrite IH.
  - unfold bitset_t. by destruct (decide _).
Qed.
(** A tuple is a standard-layout type exactly if it has no component, or one that does not start
    with an object of type storage_t<> (that of tuple<>). *)
Theorem C71_tuple_refuted t t' ts : standard_layout (tuple_t (t :: t' :: ts)) = false.
Proof. cbn. rewrite !andb_false_r. done. Qed.
Theorem C71_tuple_partial t : standard_layout (tuple_t []) = true ∧
  (standard_layout (tuple_t [t]) = true ↔ standard_layout t = true ∧ tuple_storage [] ∉ t :: first_types t).
Proof.
  split; [done|]. cbn [tuple_t standard_layout tuple_storage classes_with_members bases forallb andb]. 
  rewrite !andb_true_iff. cbn. rewrite bool_decide_eq_true. tauto.
Qed.
Example C71_case :
  standard_layout Int32 = true ∧ standard_layout (tuple_t [Int32; Int32]) = false ∧ standard_layout (tuple_t [Int32]) = true ∧
  standard_layout (tuple_t [tuple_t []]) = false ∧ standard_layout (optional_t (@array_t x86_64 (@string_t x86_64) 3)) = true.
Proof. by vm_compute. Qed.

Print Assumptions C69_class_members.
Print Assumptions C69_optional.
Print Assumptions C69_variant.
Print Assumptions C69_variant_compiles.
Print Assumptions C69_array.
Print Assumptions C69_array_empty.
Print Assumptions C69_bitset.
Print Assumptions C69_array_ref.
Print Assumptions C69_string_ref.
Print Assumptions C69_optional_ref.
Print Assumptions C69_vector.
Print Assumptions C69_string.
Print Assumptions C69_function_ref.
Print Assumptions C69_variant_ref.
Print Assumptions C69_tuple_refuted.
Print Assumptions C69_tuple_partial.
Print Assumptions C69_tuple_components.
Print Assumptions C70_optional_refuted.
Print Assumptions C70_variant_refuted.
Print Assumptions C70_tuple_refuted.
Print Assumptions C70_array_of_optionals_refuted.
Print Assumptions C70_vector_overaligned_refuted.
Print Assumptions C70_bytes_partial.
Print Assumptions C70_members_partial.
Print Assumptions C70_array_partial.
Print Assumptions C70_vector_partial.
Print Assumptions C71_standard_layout.
Print Assumptions C71_tuple_refuted.
Print Assumptions C71_tuple_partial.
