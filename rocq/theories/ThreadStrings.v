(** What string, bitset and optional of ThreadModel.v do with memory of their own. *)
From stdpp Require Import prelude gmap.
From Verif Require Import ThreadModel ThreadSpec ThreadLogic ThreadProofs.
Implicit Types (a b p q n i : nat) (vs xs ys : list nat) (c d : chunk) (cs R F : list chunk).

(** ** string *)
Definition str a n xs cs : Prop :=
  (∃ rest, n = 22 ∧ length (xs ++ 0 :: rest) = 23 ∧ cs = [C a (0 :: length xs :: xs ++ 0 :: rest)]) ∨
  (∃ b rest unused, b ≠ 0 ∧ 22 < n ∧ length (xs ++ 0 :: rest) = n + 1 ∧ length unused = 21 ∧
    cs = [C a (1 :: b :: n :: length xs :: unused); B b (xs ++ 0 :: rest)]).
Lemma str_fits a n xs cs : str a n xs cs → length xs ≤ n ∧ 22 ≤ n.
Proof.
  intros [(rest & -> & L & _)|(b & rest & unused & _ & ? & L & _)]; rewrite app_length in L; cbn [length] in L; lia.
Qed.
(** where the characters are *)
Lemma str_chars a n xs cs : str a n xs cs → ∃ k d l1 l2, cs !! k = Some d ∧ vals d = l1 ++ xs ++ 0 :: l2 ∧
  length xs + length l2 = n ∧
  (∀ ys, length ys = length xs → str a n ys (<[k := with_vals d (l1 ++ ys ++ 0 :: l2)]> cs)) ∧
  (∀ R cs', cs ⊆ R ++ cs' → ok R cs' (s_data a) (λ o cs1, o = Ok (at_ d + length l1) ∧ cs1 = cs')).
Proof.
  intros [(rest & -> & L & ->)|(b & rest & unused & N & N' & L & L' & ->)]; rewrite app_length in L; cbn [length] in L.
  - exists 0, (C a (0 :: length xs :: xs ++ 0 :: rest)), [0; length xs], rest. split_and!; [done|done|lia|..].
    + intros ys E. left. exists rest. split_and!; [done|rewrite app_length; cbn [length]; lia|]. by rewrite E.
    + intros R cs' S. unfold s_data. eapply (ok_rd _ _ _ 0); [apply S; left|reflexivity|chunks; lia|].
      apply ok_done. split; [|done]. f_equal.
  - exists 1, (B b (xs ++ 0 :: rest)), [], rest. split_and!; [done|done|lia|..].
    + intros ys E. right. exists b, rest, unused. split_and!; [done|done|rewrite app_length; cbn [length]; lia|done|]. by rewrite E.
    + intros R cs' S. unfold s_data. eapply (ok_rd _ _ _ 0); [apply S; left|reflexivity|chunks; lia|]. cbn [Nat.eqb].
      eapply (ok_read _ _ _ 1); [apply S; left|reflexivity|chunks; lia|]. apply ok_done. split; [|done]. f_equal. cbn [at_ length]. lia.
Qed.
Section readers.
Context (R cs : list chunk).
Lemma ok_s_size a n xs ca : str a n xs ca → ca ⊆ R ++ cs → ok R cs (s_size a) (λ o cs', o = Ok (length xs) ∧ cs' = cs).
Proof.
  intros [(rest & -> & L & ->)|(b & rest & unused & N & N' & L & L' & ->)] S; unfold s_size;
    (eapply (ok_rd _ _ _ 0); [apply S; left|reflexivity|chunks; lia|]; cbn [Nat.eqb]).
  - eapply (ok_read _ _ _ 1); [apply S; left|reflexivity|chunks; lia|]. by apply ok_done.
  - eapply (ok_read _ _ _ 3); [apply S; left|reflexivity|chunks; lia|]. by apply ok_done.
Qed.
Lemma ok_s_capacity a n xs ca : str a n xs ca → ca ⊆ R ++ cs → ok R cs (s_capacity a) (λ o cs', o = Ok n ∧ cs' = cs).
Proof.
  intros [(rest & -> & L & ->)|(b & rest & unused & N & N' & L & L' & ->)] S; unfold s_capacity;
    (eapply (ok_rd _ _ _ 0); [apply S; left|reflexivity|chunks; lia|]; cbn [Nat.eqb]).
  - by apply ok_done.
  - eapply (ok_read _ _ _ 2); [apply S; left|reflexivity|chunks; lia|]. by apply ok_done.
Qed.
Lemma ok_s_at a n xs ca i : str a n xs ca → ca ⊆ R ++ cs →
  ok R cs (s_at a i) (λ o cs', cs' = cs ∧ o = match xs !! i with Some x => Ok x | None => Exn OutOfRange end).
Proof.
  intros V S. unfold s_at. eapply ok_then; [by eapply ok_s_size|].
  destruct (Nat.leb_spec (length xs) i) as [L|L].
  - apply ok_done. by rewrite lookup_ge_None_2.
  - destruct (lookup_lt_is_Some_2 xs i L) as [x Ex]. rewrite Ex.
    destruct (str_chars _ _ _ _ V) as (k & d & l1 & l2 & Ed & Ev & _ & _ & G).
    eapply ok_then; [by apply G|].
    eapply (ok_read _ _ d (length l1 + i)); [apply S; by eapply elem_of_list_lookup_2| |lia|by apply ok_done].
    rewrite Ev, lookup_app_r, lookup_app_l by lia. by replace (length l1 + i - length l1) with i by lia.
Qed.
Lemma ok_s_view a n xs ca : str a n xs ca → ca ⊆ R ++ cs → ∃ p, 
  ok R cs (s_view a) (λ o cs', o = Ok (p, length xs) ∧ cs' = cs) ∧
  (xs = [] ∨ ∃ d l1 l2, d ∈ ca ∧ vals d = l1 ++ xs ++ l2 ∧ p = at_ d + length l1).
Proof.
  intros V S. destruct (decide (xs = [])) as [->|N].
  - exists 0. split; [|by left]. unfold s_view. eapply ok_then; [by eapply ok_s_size|]. by apply ok_done.
  - destruct (str_chars _ _ _ _ V) as (k & d & l1 & l2 & Ed & Ev & _ & _ & G).
    exists (at_ d + length l1). split.
    + unfold s_view. eapply ok_then; [by eapply ok_s_size|]. destruct xs as [|x xs]; [done|]. cbn [length Nat.eqb].
      eapply ok_then; [by apply G|]. eapply ok_then; [by eapply ok_s_size|]. by apply ok_done.
    + right. exists d, l1, (0 :: l2). split_and!; [by eapply elem_of_list_lookup_2|done|done].
Qed.
Lemma ok_s_eq a n xs ca b k ys cb : str a n xs ca → ca ⊆ R ++ cs → str b k ys cb → cb ⊆ R ++ cs →
  ok R cs (s_eq a b) (λ o cs', o = Ok (bool_decide (xs = ys)) ∧ cs' = cs).
Proof.
  intros V S W T. destruct (ok_s_view _ _ _ _ V S) as (p & Op & Hp), (ok_s_view _ _ _ _ W T) as (q & Oq & Hq).
  unfold s_eq. eapply ok_then; [apply Oq|]. eapply ok_then; [apply Op|]. cbn [fst snd].
  destruct (Nat.eqb_spec (length xs) (length ys)) as [L|L].
  - destruct Hp as [->|(d & l1 & l2 & Id & Ed & ->)].
    { destruct ys; [|done]. by apply ok_done. }
    destruct Hq as [->|(d' & l1' & l2' & Id' & Ed' & ->)].
    { destruct xs; [|done]. by apply ok_done. }
    eapply (ok_equal_n _ _ d d'); [by apply S|by apply T|done..].
  - apply ok_done. by rewrite bool_decide_eq_false_2 by congruence.
Qed.
End readers.
Lemma sub_own R cs F : cs ⊆ R ++ cs ++ F.
Proof. intros c I. rewrite !elem_of_app. tauto. Qed.

Lemma ok_s_release R F a n xs ca : str a n xs ca →
  ok R (ca ++ F) (s_release a) (λ o cs', ∃ vs, cs' = C a vs :: F ∧ length vs = 25 ∧ o = Ok tt).
Proof.
  intros [(rest & -> & L & ->)|(b & rest & unused & N & N' & L & L' & ->)]; unfold s_release; cbn [app];
    (eapply (ok_rd_own _ _ 0 _ 0); [reflexivity..|chunks; lia|]; cbn [Nat.eqb]).
  - apply ok_done. eexists. split; [done|]. cbn [length]. by rewrite L.
  - eapply (ok_rd_own _ _ 0 _ 1); [reflexivity..|chunks; lia|].
    unfold free. eapply (ok_free _ _ 1); [reflexivity|]. apply ok_done. eexists. split; [done|]. cbn [length]. by rewrite L'.
Qed.
Lemma ok_s_move_heap R F a n xs ca t k s ys rest : str a n xs ca → t ≠ 0 → 22 < k → length (ys ++ 0 :: rest) = k + 1 →
  s = length ys →
  ok R (B t (ys ++ 0 :: rest) :: ca ++ F) (s_move_heap a t k s) (λ o cs',
    ∃ ca', cs' = ca' ++ F ∧ str a k ys ca' ∧ o = Ok tt).
Proof.
  intros V N K L ->. eapply (ok_perm _ _ (ca ++ B t (ys ++ 0 :: rest) :: F)); [by rewrite Permutation_middle|].
  unfold s_move_heap. eapply ok_bind; [by eapply ok_s_release|cbn beta|by intros ? ? (? & _ & _ & ?)].
  intros [] cs' (vs & -> & Lv & _). destruct vs as [|v0 [|v1 [|v2 [|v3 unused]]]]; try done.
  wro 0 0. wro 0 1. wro 0 2. unfold wr. eapply (ok_write _ _ 0 _ 3); [reflexivity|chunks; lia|chunks; lia|]. chunks.
  apply ok_done. exists [C a (1 :: t :: k :: length ys :: unused); B t (ys ++ 0 :: rest)]. split_and!; [done| |done].
  right. exists t, rest, unused. cbn [length] in Lv. split_and!; [done|done|done|lia|done].
Qed.
Lemma ok_s_storage R cs n : ok R cs (s_storage n) (λ o cs',
  (∃ t k ws, n ≤ k ∧ 22 < k ∧ t ≠ 0 ∧ length ws = k ∧ cs' = B t (0 :: ws) :: cs ∧ o = Ok (t, k)) ∨ (cs' = cs ∧ o = Exn BadAlloc)).
Proof.
  unfold s_storage. cbv zeta. apply ok_al; [by right|]. intros t vs N L. destruct vs as [|v ws]; [cbn [length] in L; lia|].
  wro 0 0. apply ok_done. left. do 3 eexists. split_and!; [| |done| |done|done].
  - pose proof (Nat.div_mod (n + 23) 24 ltac:(lia)). pose proof (Nat.mod_upper_bound (n + 23) 24 ltac:(lia)). nia.
  - lia.
  - cbn [length] in L. lia.
Qed.
Lemma ok_s_set_size R F a n xs ca k : str a n xs ca → k ≤ n →
  ok R (ca ++ F) (s_set_size a k) (λ o cs', ∃ ca' ys, cs' = ca' ++ F ∧ str a n ys ca' ∧ o = Ok tt ∧
    length ys = k ∧ (k ≤ length xs → ys = take k xs) ∧ (length xs ≤ k → ∃ zs, ys = xs ++ zs)).
Proof.
  assert (∀ ws, k < length ws → ∃ rest, <[k := 0]> ws = take k ws ++ 0 :: rest) as G.
  { intros ws Lw. exists (drop (S k) ws). by rewrite insert_take_drop. }
  assert (∀ rest, (k ≤ length xs → take k (xs ++ 0 :: rest) = take k xs) ∧
    (length xs ≤ k → ∃ zs, take k (xs ++ 0 :: rest) = xs ++ zs)) as H.
  { intros rest. split; [intros; by rewrite take_app_le|intros; rewrite take_app_ge by lia; eauto]. }
  intros [(rest & -> & L & ->)|(b & rest & unused & N & N' & L & L' & ->)] Lk; unfold s_set_size; cbn [app];
    (eapply (ok_rd_own _ _ 0 _ 0); [reflexivity..|chunks; lia|]; cbn [Nat.eqb]).
  - wro 0 1. unfold wr. eapply (ok_write _ _ 0 _ (2 + k)); [reflexivity|chunks; lia|chunks; lia|]. chunks.
    destruct (G (xs ++ 0 :: rest)) as [rest' E]; [lia|].
    change (<[2 + k:=0]> (0 :: k :: xs ++ 0 :: rest)) with (0 :: k :: <[k:=0]> (xs ++ 0 :: rest)). rewrite E.
    assert (length (take k (xs ++ 0 :: rest)) = k) as Lt by (rewrite take_length; lia).
    apply ok_done. exists [C a (0 :: k :: take k (xs ++ 0 :: rest) ++ 0 :: rest')], (take k (xs ++ 0 :: rest)).
    destruct (H rest) as [H1 H2]. split_and!; [done| |done|done|done|done].
    left. exists rest'. split_and!; [done|by rewrite <- E, insert_length|by rewrite Lt].
  - wro 0 3. eapply (ok_rd_own _ _ 0 _ 1); [reflexivity..|chunks; lia|].
    unfold wr. eapply (ok_write _ _ 1 _ k); [reflexivity|chunks; lia|done|]. chunks.
    destruct (G (xs ++ 0 :: rest)) as [rest' E]; [lia|]. rewrite E.
    assert (length (take k (xs ++ 0 :: rest)) = k) as Lt by (rewrite take_length; lia).
    apply ok_done. exists [C a (1 :: b :: n :: k :: unused); B b (take k (xs ++ 0 :: rest) ++ 0 :: rest')], (take k (xs ++ 0 :: rest)).
    destruct (H rest) as [H1 H2]. split_and!; [done| |done|done|done|done].
    right. exists b, rest', unused. split_and!; [done|done|by rewrite <- E, insert_length|done|by rewrite Lt].
Qed.
Lemma ok_s_reserve R F a n xs ca k : str a n xs ca →
  ok R (ca ++ F) (s_reserve a k) (λ o cs',
    (∃ ca' n', cs' = ca' ++ F ∧ k ≤ n' ∧ str a n' xs ca' ∧ o = Ok tt ∧ (k ≤ n → n' = n)) ∨
    (cs' = ca ++ F ∧ o = Exn BadAlloc ∧ n < k)).
Proof.
  intros V. unfold s_reserve. eapply ok_then; [eapply ok_s_capacity; [done|apply sub_own]|].
  destruct (Nat.leb_spec k n) as [L|L].
  { apply ok_done. left. exists ca, n. done. }
  destruct (str_fits _ _ _ _ V) as [Lx Ln].
  eapply ok_bind; [apply ok_s_storage| |].
  2: { intros e cs' [(?&?&?&?&?&?&?&?&?)|[-> [= ->]]]; [done|]. by right. }
  intros x cs' [(t & k' & ws & Lk & Lk' & Nt & Lw & -> & [= ->])|[_ ?]]; [|done]. cbn [fst snd].
  assert (ca ⊆ R ++ B t (0 :: ws) :: ca ++ F) as Sub by (intros d I; rewrite elem_of_app, elem_of_cons, elem_of_app; tauto).
  eapply ok_then; [by eapply ok_s_size|].
  eapply (ok_wr _ _ 0 _ (length xs)); [reflexivity|chunks; lia|done|]. cbn [insert list_insert with_vals vals at_].
  assert (∃ mid rest, <[length xs := 0]> (0 :: ws) = mid ++ 0 :: rest ∧ length mid = length xs ∧ length rest = k' - length xs) as (mid & rest & E & Lm & Lr).
  { exists (take (length xs) (0 :: ws)), (drop (S (length xs)) (0 :: ws)).
    rewrite insert_take_drop by (cbn [length]; lia). split; [done|]. rewrite take_length, drop_length. cbn [length]. lia. }
  rewrite E.
  assert (∀ vs, ca ⊆ R ++ B t vs :: ca ++ F) as S' by (intros vs d I; rewrite elem_of_app, elem_of_cons, elem_of_app; tauto).
  eapply ok_then; [by eapply ok_s_size; [done|apply S']|].
  eapply (ok_then _ _ (B t (xs ++ 0 :: rest) :: ca ++ F) _ tt).
  { destruct (Nat.eqb_spec (length xs) 0) as [Z|Z].
    - destruct xs; [|done]. destruct mid; [|done]. by apply ok_done.
    - destruct (str_chars _ _ _ _ V) as (j & d & l1 & l2 & Ed & Ev & _ & _ & G).
      eapply ok_then; [apply G, S'|]. eapply ok_then; [by eapply ok_s_size; [done|apply S']|].
      eapply ok_mono.
      + eapply (ok_copy_n _ _ 0 _ d _ _ _ l1 (xs ++ [0]) l2 [] (mid ++ [0]) rest); [reflexivity| | |done| | | |].
        * chunks. rewrite !elem_of_app. right. left. by eapply elem_of_list_lookup_2.
        * by rewrite Ev, <- app_assoc.
        * rewrite app_length. cbn [length]. lia.
        * cbn [vals app]. by rewrite <- app_assoc.
        * chunks. lia.
        * rewrite !app_length. lia.
      + cbn beta. intros o cs' [-> ->]. chunks. by rewrite <- app_assoc. }
  eapply ok_mono.
  - eapply (ok_s_move_heap _ _ _ _ _ _ _ k' _ xs rest); [done|done|done| |done]. rewrite app_length. cbn [length]. lia.
  - cbn beta. intros o cs' (ca' & -> & V' & ->). left. exists ca', k'. split_and!; [done..|lia].
Qed.
Lemma insert_frame {X} (k : nat) (x y : X) (l l' : list X) : l !! k = Some y → <[k := x]> (l ++ l') = <[k := x]> l ++ l'.
Proof. intros E. apply insert_app_l. by eapply lookup_lt_Some. Qed.
Lemma delete_app_frame {X} (k : nat) (x : X) (l l' : list X) : l !! k = Some x → delete k (l ++ l') = delete k l ++ l'.
Proof. revert k. induction l as [|y l IH]; intros [|k] E; [done..|]. cbn. f_equal. by apply IH. Qed.
Lemma ok_s_push_back R F a n xs ca x : str a n xs ca →
  ok R (ca ++ F) (s_push_back a x) (λ o cs',
    (∃ ca' n', cs' = ca' ++ F ∧ length xs < n' ∧ str a n' (xs ++ [x]) ca' ∧ o = Ok tt ∧ (length xs < n → n' = n)) ∨
    (cs' = ca ++ F ∧ o = Exn BadAlloc ∧ n ≤ length xs)).
Proof.
  intros V. destruct (str_fits _ _ _ _ V) as [Lx _]. unfold s_push_back.
  eapply ok_then; [eapply ok_s_size; [done|apply sub_own]|]. eapply ok_then; [eapply ok_s_capacity; [done|apply sub_own]|].
  eapply (ok_bind _ _ _ _ (λ o cs',
    (∃ ca' n', cs' = ca' ++ F ∧ length xs < n' ∧ str a n' xs ca' ∧ o = Ok tt ∧ (length xs < n → n' = n)) ∨
    (cs' = ca ++ F ∧ o = Exn BadAlloc ∧ n ≤ length xs))).
  { destruct (Nat.eqb_spec (length xs) n) as [E|E].
    - eapply ok_then; [eapply ok_s_size; [done|apply sub_own]|].
      eapply ok_mono; [by eapply ok_s_reserve|]. cbn beta.
      intros o cs' [(ca' & n' & -> & L & V' & -> & _)|(-> & -> & L)]; [left|right].
      + exists ca', n'. split_and!; [done|lia|done|done|lia].
      + split_and!; [done|done|lia].
    - apply ok_done. left. exists ca, n. split_and!; [done|lia|done..]. }
  2: { intros e cs' [(?&?&?&?&?&?&?)|(-> & ? & ?)]; [done|]. right. done. }
  intros [] cs' [(ca' & n' & -> & L & V' & _ & Hn)|(_ & ? & _)]; [|done].
  eapply (ok_mono _ _ _ (λ o cs', ∃ ca'', cs' = ca'' ++ F ∧ str a n' (xs ++ [x]) ca'' ∧ o = Ok tt)).
  2: { intros o cs' (ca'' & -> & V'' & ->). left. by exists ca'', n'. }
  clear ca V. rename ca' into ca, V' into V.
  do 2 (eapply ok_then; [eapply ok_s_size; [done|apply sub_own]|]).
  eapply ok_bind; [by eapply ok_s_reserve|cbn beta|].
  2: { intros e cs' [(?&?&?&?&?&?&?)|(-> & ? & ?)]; [done|lia]. }
  intros [] cs' [(ca' & n'' & -> & _ & V' & _ & Hn')|(_ & ? & _)]; [|done].
  rewrite Hn' in V' by lia. clear ca V n'' Hn'. rename ca' into ca, V' into V.
  eapply ok_bind; [eapply ok_s_set_size; [done|lia]|cbn beta|by intros ? ? (?&?&?&?&?&?)].
  intros [] cs' (ca' & ys & -> & V' & _ & Ly & _ & Hy).
  destruct Hy as [zs ->]; [lia|]. rewrite app_length in Ly. destruct zs as [|z [|z2 zs]]; cbn [length] in Ly; [lia| |lia].
  clear ca V. rename ca' into ca, V' into V.
  assert (length (xs ++ [z]) = length xs + 1) as Lz by (rewrite app_length; done).
  eapply ok_then; [eapply ok_s_size; [done|apply sub_own]|].
  destruct (Nat.ltb_spec (length xs) (length (xs ++ [z]))) as [_|?]; [|lia].
  destruct (str_chars _ _ _ _ V) as (j & d & l1 & l2 & Ed & Ev & _ & Hd & G).
  do 2 (eapply ok_then; [apply G, sub_own|]).
  eapply ok_then; [eapply ok_s_size; [done|apply sub_own]|].
  replace (at_ d + length l1 + length (xs ++ [z]) - (at_ d + length l1 + length xs)) with 1 by lia.
  eapply ok_mono.
  - eapply (ok_write_n _ _ j d _ (l1 ++ xs) [z] (0 :: l2)); [by apply lookup_app_l_Some| |rewrite app_length; lia|done].
    by rewrite Ev, <- !app_assoc.
  - cbn beta. intros o cs' [-> ->]. eexists. split; [by eapply insert_frame|]. split; [|done].
    cbn [replicate]. specialize (Hd (xs ++ [x])). rewrite <- !app_assoc in Hd. rewrite <- !app_assoc. apply Hd.
    by rewrite !app_length.
Qed.
Lemma ok_s_pop_back R F a n xs x ca : str a n (xs ++ [x]) ca →
  ok R (ca ++ F) (s_pop_back a) (λ o cs', ∃ ca', cs' = ca' ++ F ∧ str a n xs ca' ∧ o = Ok tt).
Proof.
  intros V. destruct (str_fits _ _ _ _ V) as [Lx _]. unfold s_pop_back.
  eapply ok_then; [eapply ok_s_size; [done|apply sub_own]|]. rewrite app_length in *. cbn [length] in *.
  eapply ok_mono; [eapply ok_s_set_size; [done|lia]|]. cbn beta. intros o cs' (ca' & ys & -> & V' & -> & Ly & E & _).
  rewrite E in V' by (rewrite app_length; lia). replace (length xs + 1 - 1) with (length xs) in V' by lia.
  rewrite take_app in V'. eauto.
Qed.
Lemma ok_s_clear R F a n xs ca : str a n xs ca →
  ok R (ca ++ F) (s_clear a) (λ o cs', ∃ ca', cs' = ca' ++ F ∧ str a n [] ca' ∧ o = Ok tt).
Proof.
  intros V. unfold s_clear. eapply ok_then; [eapply ok_s_size; [done|apply sub_own]|].
  destruct (Nat.eqb_spec (length xs) 0) as [Z|Z].
  - destruct xs; [|done]. apply ok_done. eauto.
  - eapply ok_mono; [eapply ok_s_set_size; [done|lia]|]. cbn beta. intros o cs' (ca' & ys & -> & V' & -> & Ly & _).
    destruct ys; [|done]. eauto.
Qed.
Lemma ok_s_copy R F a vs b k ys cb : length vs = 25 → str b k ys cb → cb ⊆ R ++ F →
  ok R (C a vs :: F) (s_copy a b) (λ o cs',
    (∃ ca' n', cs' = ca' ++ F ∧ length ys ≤ n' ∧ str a n' ys ca' ∧ o = Ok tt) ∨
    (∃ vs', cs' = C a vs' :: F ∧ length vs' = 25 ∧ o = Exn BadAlloc)).
Proof.
  intros Lv W S. unfold s_copy.
  assert (∀ cs, cb ⊆ R ++ cs ++ F) as S'.
  { intros cs c I. apply S in I. rewrite !elem_of_app in *. tauto. }
  destruct (ok_s_view R (C a vs :: F) _ _ _ _ W (S' [C a vs])) as (p & Op & Hp).
  eapply ok_then; [apply Op|]. cbn [fst snd].
  destruct vs as [|v0 [|v1 [|v2 rest]]]; try done. unfold s_clear_to_sso at 1.
  apply bind_assoc. wro 0 0. apply bind_assoc. wro 0 1. wro 0 2.
  assert (str a 22 [] [C a (0 :: 0 :: 0 :: rest)]) as V by (left; exists rest; cbn [app length] in *; split_and!; [done|lia|done]).
  eapply (ok_bind _ _ _ _ (λ o cs',
    (∃ ca' n', cs' = ca' ++ F ∧ length ys ≤ n' ∧ str a n' [] ca' ∧ o = Ok tt) ∨
    (∃ vs', cs' = C a vs' :: F ∧ length vs' = 25 ∧ o = Exn BadAlloc))).
  - unfold unwind. destruct (Nat.ltb_spec sso_size (length ys)) as [L|L].
    + eapply ok_catch.
      * eapply (ok_bind _ _ _ _ _ (λ o cs', (∃ ca' n', cs' = ca' ++ F ∧ length ys ≤ n' ∧ str a n' [] ca' ∧ o = Ok tt) ∨
          cs' = [C a (0 :: 0 :: 0 :: rest)] ++ F ∧ o = Exn BadAlloc)).
        { apply ok_s_storage. }
        -- intros x cs' [(t & k' & ws & Lk & Lk' & Nt & Lw & -> & [= ->])|[_ ?]]; [|done]. cbn [fst snd].
           eapply ok_mono; [by eapply (ok_s_move_heap R F a _ _ _ t k' 0 [] ws V); [|..|cbn [app length]; lia|]|].
           cbn beta. intros o cs' (ca' & -> & V' & ->). left. by exists ca', k'.
        -- intros e cs' [(?&?&?&?&?&?&?&?&?)|[-> [= ->]]]; [done|]. by right.
      * cbn beta. intros o cs' [(ca' & n' & -> & Ln & V' & ->)|[-> ->]].
        -- apply ok_done. left. eauto 10.
        -- eapply ok_bind; [by eapply ok_s_release|cbn beta|by intros ? ? (? & _ & _ & ?)].
           intros [] cs' (vs & -> & Lvs & _). apply ok_done. right. eauto 10.
    + eapply ok_catch.
      * eapply ok_bind; [by eapply (ok_s_release _ F _ _ _ _ V)|cbn beta|by intros ? ? (? & _ & _ & ?)].
        intros [] cs' (vs & -> & Lvs & _). destruct vs as [|w0 [|w1 [|w2 rest']]]; try done.
        unfold s_clear_to_sso. wro 0 0. wro 0 1. unfold wr. eapply (ok_write _ _ 0 _ 2); [reflexivity|chunks; lia|chunks; lia|]. chunks.
        eapply (ok_done _ _ _ (λ o cs', ∃ rest', cs' = [C a (0 :: 0 :: 0 :: rest')] ++ F ∧ length rest' = 22 ∧ o = Ok tt)).
        exists rest'. cbn [length] in Lvs. split_and!; [done|lia|done].
      * cbn beta. intros o cs' (rest' & -> & Lr & ->). apply ok_done. left.
        exists [C a (0 :: 0 :: 0 :: rest')], 22. split_and!; [done|done| |done].
        left. exists rest'. cbn [app length]. by rewrite Lr.
  - intros [] cs' [(ca & n & -> & Ln & V' & _)|(? & _ & _ & ?)]; [|done].
    eapply ok_bind; [by eapply ok_s_set_size|cbn beta|by intros ? ? (?&?&?&?&?&?)].
    intros [] cs' (ca' & zs & -> & V2 & _ & Lz & _).
    destruct (str_chars _ _ _ _ V2) as (j & d & l1 & l2 & Ed & Ev & _ & Hd & G).
    eapply ok_then; [apply G, sub_own|].
    destruct Hp as [->|(d' & l1' & l2' & Id & Ed' & ->)].
    + destruct zs; [|done]. cbn [length copy_n]. apply ok_done. left. by exists ca', n.
    + eapply ok_mono.
      * eapply (ok_copy_n _ _ j d d' _ _ _ l1' ys l2' l1 zs (0 :: l2)); [by apply lookup_app_l_Some| |done..].
        rewrite (delete_app_frame _ d) by done. apply S in Id. rewrite !elem_of_app in *. tauto.
      * cbn beta. intros o cs' [-> ->]. left. eexists _, n. split; [by eapply insert_frame|]. split_and!; [done| |done].
        by apply Hd.
  - intros e cs' [(?&?&?&?&?&?)|(vs' & -> & Lvs & ->)]; [done|]. right. eauto.
Qed.

(** part of a list that is overwritten *)
Lemma split_at {X} (l : list X) n : n ≤ length l → ∃ l1 l2, l = l1 ++ l2 ∧ length l1 = n ∧ length l2 = length l - n.
Proof. intros L. exists (take n l), (drop n l). rewrite take_drop, take_length, drop_length. split_and!; [done|lia|done]. Qed.
Lemma ok_s_move_assign R F a n xs ca b k ys cb : str a n xs ca → str b k ys cb → a ≠ b →
  ok R (ca ++ cb ++ F) (s_move_assign a b) (λ o cs', ∃ ca' cb', cs' ≡ₚ ca' ++ cb' ++ F ∧ str a k ys ca' ∧ o = Ok tt ∧
    if decide (k ≤ 22) then cb' = cb else str b 22 [] cb').
Proof.
  intros V W N. unfold s_move_assign. destruct (Nat.eqb_spec a b) as [|_]; [done|].
  eapply ok_bind; [by eapply ok_s_release|cbn beta|by intros ? ? (? & _ & _ & ?)].
  intros [] cs' (vs & -> & Lv & _). destruct vs as [|v0 [|v1 [|v2 [|v3 unused]]]]; try done. cbn [length] in Lv.
  destruct W as [(rest & -> & L & ->)|(q & rest & un & Nq & Nk & L & Lu & ->)]; cbn [app].
  - rdo 1 0. wro 0 0. rdo 0 0. cbn [Nat.eqb]. rdo 1 1. wro 0 1. rdo 0 1. pose proof L as L'. rewrite app_length in L'. cbn [length] in L'.
    destruct (split_at (v2 :: v3 :: unused) (length ys + 1)) as (old & l2 & E & L1 & L2); [cbn [length]; lia|]. cbn [length] in L2.
    eapply ok_mono.
    + eapply (ok_copy_n _ _ 0 _ (C b (0 :: length ys :: ys ++ 0 :: rest)) _ _ _ [0; length ys] (ys ++ [0]) rest [0; length ys] old l2);
        [reflexivity|chunks; rewrite elem_of_app; right; left|by chunks; rewrite <- app_assoc|done|rewrite app_length; cbn [length]; lia|
         chunks; by rewrite E|done|rewrite app_length; cbn [length]; lia].
    + cbn beta. intros o cs' [-> ->]. chunks.
      exists [C a (0 :: length ys :: ys ++ 0 :: l2)], [C b (0 :: length ys :: ys ++ 0 :: rest)]. split_and!.
      * cbn [app]. by rewrite <- app_assoc.
      * left. exists l2. split_and!; [done|rewrite app_length; cbn [length]; lia|done].
      * done.
      * by rewrite decide_True by lia.
  - rdo 1 0. wro 0 0. rdo 0 0. cbn [Nat.eqb]. eapply ok_then.
    { eapply (ok_copy_n _ _ 0 _ (C b (1 :: q :: k :: length ys :: un)) _ _ _ [1] [q; k; length ys] un [1] [v1; v2; v3] unused);
        [reflexivity|chunks; rewrite elem_of_app; right; left|done|done|done|done|done|done]. }
    chunks. unfold s_clear_to_sso. wro 1 0. wro 1 1.
    unfold wr. eapply (ok_write _ _ 1 _ 2); [reflexivity|chunks; lia|chunks; lia|]. chunks. apply ok_done.
    exists [C a (1 :: q :: k :: length ys :: unused); B q (ys ++ 0 :: rest)], [C b (0 :: 0 :: 0 :: length ys :: un)]. split_and!.
    + perm.
    + right. exists q, rest, unused. split_and!; [done|done|done|lia|done].
    + done.
    + rewrite decide_False by lia. left. exists (length ys :: un). cbn [length app]. split_and!; [done|lia|done].
Qed.
(** string.hpp:125-136, before dealloc is swapped *)
Lemma ok_s_swap_mixed {A} R F h p n xs rest unused s ys rest' (k : unit → prog A) Q :
  length (xs ++ 0 :: rest) = n + 1 → length unused = 21 → length (ys ++ 0 :: rest') = 23 →
  (∀ l2 un, length (ys ++ 0 :: l2) = 23 → length un = 21 →
    ok R (C h (1 :: length ys :: ys ++ 0 :: l2) :: C s (0 :: p :: n :: length xs :: un) :: F) (k tt) Q) →
  ok R (C h (1 :: p :: n :: length xs :: unused) :: C s (0 :: length ys :: ys ++ 0 :: rest') :: F)
    (tmp <- read_n (h + 1) 3 ;; n <- rd (s + 1) ;; wr (h + 1) n ;;; n <- rd (s + 1) ;; copy_n (s + 2) (n + 1) (h + 2) ;;;
     x <- write_n (s + 1) tmp ;; k x) Q.
Proof.
  intros L Lu L' O. eapply ok_then.
  { eapply (ok_read_n _ _ (C h (1 :: p :: n :: length xs :: unused)) _ _ [1] [p; n; length xs] unused);
      [rewrite elem_of_app; right; left|done|done|done]. }
  rdo 1 1. wro 0 1. rdo 1 1. pose proof L' as L''. rewrite app_length in L''. cbn [length] in L''.
  destruct (split_at (n :: length xs :: unused) (length ys + 1)) as (old & l2 & E & L1 & L2); [cbn [length]; lia|]. cbn [length] in L2.
  eapply ok_then.
  { eapply (ok_copy_n _ _ 0 _ (C s (0 :: length ys :: ys ++ 0 :: rest')) _ _ _ [0; length ys] (ys ++ [0]) rest' [1; length ys] old l2);
      [reflexivity|chunks; rewrite elem_of_app; right; left|by chunks; rewrite <- app_assoc|done|rewrite app_length; cbn [length]; lia|
       chunks; by rewrite E|done|rewrite app_length; cbn [length]; lia]. }
  chunks. destruct (split_at (length ys :: ys ++ 0 :: rest') 3) as (old' & un & E' & L1' & L2'); [cbn [length]; lia|]. cbn [length] in L2'.
  eapply ok_then.
  { eapply (ok_write_n _ _ 1 _ _ [0] old' un); [reflexivity|chunks; by rewrite E'|done|done]. }
  chunks. rewrite <- app_assoc. cbn [app]. apply O; [rewrite app_length; cbn [length]; lia|lia].
Qed.
Lemma ok_s_swap R F a n xs ca b k ys cb : str a n xs ca → str b k ys cb → a ≠ b →
  ok R (ca ++ cb ++ F) (s_swap a b) (λ o cs', ∃ ca' cb', cs' ≡ₚ ca' ++ cb' ++ F ∧ str a k ys ca' ∧ str b n xs cb' ∧ o = Ok tt).
Proof.
  intros V W N. unfold s_swap. destruct (Nat.eqb_spec a b) as [|_]; [done|].
  destruct V as [(rest & -> & L & ->)|(p & rest & un & Np & Nn & L & Lu & ->)];
    destruct W as [(rest' & -> & L' & ->)|(q & rest' & un' & Nq & Nk & L' & Lu' & ->)]; cbn [app].
  - rdo 0 0. rdo 1 0. cbn [Nat.eqb andb negb]. rdo 0 1.
    pose proof L as L1. rewrite app_length in L1. cbn [length] in L1. pose proof L' as L1'. rewrite app_length in L1'. cbn [length] in L1'.
    eapply ok_then.
    { eapply (ok_read_n _ _ (C a (0 :: length xs :: xs ++ 0 :: rest)) _ _ [0; length xs] (xs ++ [0]) rest);
        [rewrite elem_of_app; right; left|by chunks; rewrite <- app_assoc|done|rewrite app_length; cbn [length]; lia]. }
    rdo 1 1. destruct (split_at (xs ++ 0 :: rest) (length ys + 1)) as (old & l2 & E & Lo & Ll); [lia|].
    eapply ok_then.
    { eapply (ok_copy_n _ _ 0 _ (C b (0 :: length ys :: ys ++ 0 :: rest')) _ _ _ [0; length ys] (ys ++ [0]) rest' [0; length xs] old l2);
        [reflexivity|chunks; rewrite elem_of_app; right; left|by chunks; rewrite <- app_assoc|done|rewrite app_length; cbn [length]; lia|
         chunks; by rewrite E|done|rewrite app_length; cbn [length]; lia]. }
    chunks. rdo 0 1. rewrite take_ge by (rewrite app_length; cbn [length]; lia).
    destruct (split_at (ys ++ 0 :: rest') (length xs + 1)) as (old' & l2' & E' & Lo' & Ll'); [lia|].
    eapply ok_then.
    { eapply (ok_write_n _ _ 1 _ _ [0; length ys] old' l2'); [reflexivity|chunks; by rewrite E'|done|rewrite app_length; cbn [length]; lia]. }
    chunks. eapply ok_mono; [eapply (ok_swap_cells _ _ 0 _ 1 _ _ _ 1 1); [done|reflexivity..]|].
    cbn beta. intros o cs' [-> ->]. chunks.
    exists [C a (0 :: length ys :: ys ++ 0 :: l2)], [C b (0 :: length xs :: xs ++ 0 :: l2')]. split_and!.
    + cbn [app]. by rewrite <- !app_assoc.
    + left. exists l2. split_and!; [done|rewrite app_length; cbn [length]; lia|done].
    + left. exists l2'. split_and!; [done|rewrite app_length; cbn [length]; lia|done].
    + done.
  - rdo 0 0. rdo 1 0. cbn [Nat.eqb andb negb]. cbv zeta.
    eapply ok_perm; [apply perm_swap|]. eapply ok_s_swap_mixed; [done|done|done|]. intros l2 un Ll Lun. cbn beta.
    eapply ok_mono; [eapply (ok_swap_cells _ _ 1 _ 0 _ _ _ 0 0); [done|reflexivity|reflexivity|reflexivity|reflexivity|chunks; lia|chunks; lia]|].
    cbn beta. intros o cs' [-> ->]. chunks.
    exists [C a (1 :: q :: k :: length ys :: un); B q (ys ++ 0 :: rest')], [C b (0 :: length xs :: xs ++ 0 :: l2)]. split_and!.
    + perm.
    + right. by exists q, rest', un.
    + left. by exists l2.
    + done.
  - rdo 0 0. rdo 2 0. cbn [Nat.eqb andb negb]. cbv zeta.
    eapply ok_perm; [apply perm_skip, perm_swap|]. eapply ok_s_swap_mixed; [done|done|done|]. intros l2 un2 Ll Lun. cbn beta.
    eapply ok_mono; [eapply (ok_swap_cells _ _ 0 _ 1 _ _ _ 0 0); [done|reflexivity|reflexivity|reflexivity|reflexivity|chunks; lia|chunks; lia]|].
    cbn beta. intros o cs' [-> ->]. chunks.
    exists [C a (0 :: length ys :: ys ++ 0 :: l2)], [C b (1 :: p :: n :: length xs :: un2); B p (xs ++ 0 :: rest)]. split_and!.
    + perm.
    + left. by exists l2.
    + right. by exists p, rest, un2.
    + done.
  - rdo 0 0. rdo 2 0. cbn [Nat.eqb andb negb].
    eapply ok_then; [eapply (ok_swap_cells _ _ 0 _ 2 _ _ _ 1 1); [done|reflexivity..|chunks; lia|chunks; lia]|]. chunks.
    eapply ok_then; [eapply (ok_swap_cells _ _ 0 _ 2 _ _ _ 2 2); [done|reflexivity..|chunks; lia|chunks; lia]|]. chunks.
    eapply ok_then; [eapply (ok_swap_cells _ _ 0 _ 2 _ _ _ 3 3); [done|reflexivity..|chunks; lia|chunks; lia]|]. chunks.
    eapply ok_mono; [eapply (ok_swap_cells _ _ 0 _ 2 _ _ _ 0 0); [done|reflexivity..|chunks; lia|chunks; lia]|].
    cbn beta. intros o cs' [-> ->]. chunks.
    exists [C a (1 :: q :: k :: length ys :: un); B q (ys ++ 0 :: rest')], [C b (1 :: p :: n :: length xs :: un'); B p (xs ++ 0 :: rest)].
    split_and!.
    + perm.
    + right. by exists q, rest', un.
    + right. by exists p, rest, un'.
    + done.
Qed.

(** ** bitset *)
Lemma bit_insert vs i v w j : vs !! (i / 8) = Some v →
  (∀ k, k ≠ i mod 8 → Nat.testbit w k = Nat.testbit v k) →
  bit (<[i / 8 := w]> vs) j = if decide (j = i) then Some (Nat.testbit w (i mod 8)) else bit vs j.
Proof.
  intros E H. unfold bit. destruct (decide (i / 8 = j / 8)) as [D|D].
  - rewrite <- D, list_lookup_insert by (by eapply lookup_lt_Some). cbn [fmap option_fmap option_map].
    case_decide as J; [by subst|]. rewrite E. cbn [fmap option_fmap option_map]. f_equal. apply H. intros M. apply J.
    rewrite (Nat.div_mod i 8), (Nat.div_mod j 8) by lia. lia.
  - rewrite list_lookup_insert_ne by done. rewrite decide_False by (intros ->; done). done.
Qed.
Lemma ok_b_test R cs a vs i v : C a vs ∈ R ++ cs → vs !! (i / 8) = Some v →
  ok R cs (b_test a i) (λ o cs', o = Ok (Nat.testbit v (i mod 8)) ∧ cs' = cs).
Proof. intros I E. unfold b_test. eapply (ok_rd _ _ _ (i / 8)); [done|done|done|]. by apply ok_done. Qed.
Lemma ok_b_count R cs a vs n : C a vs ∈ R ++ cs → length vs = n →
  ok R cs (b_count a n) (λ o cs', o = Ok (sum_list_with popcount vs) ∧ cs' = cs).
Proof.
  intros I <-. unfold b_count. eapply ok_then; [|by apply ok_done].
  eapply (ok_read_n _ _ _ _ _ [] vs []); [done|by rewrite app_nil_r|cbn [at_ length]; lia|done].
Qed.
Lemma ok_b_eq R cs a vs b ws n : C a vs ∈ R ++ cs → C b ws ∈ R ++ cs → length vs = n → length ws = n →
  ok R cs (b_eq a b n) (λ o cs', o = Ok (bool_decide (vs = ws)) ∧ cs' = cs).
Proof.
  intros I J L L'. unfold b_eq.
  eapply (ok_equal_n _ _ (C a vs) (C b ws) _ _ _ [] vs [] [] ws []); [done|done|cbn [vals app]; by rewrite ?app_nil_r..|cbn [at_ length]; lia|cbn [at_ length]; lia|done|done].
Qed.
Lemma ok_b_update R F a vs i v (f : nat → nat) : vs !! (i / 8) = Some v →
  ok R (C a vs :: F) (w <- rd (a + i / 8) ;; wr (a + i / 8) (f w)) (λ o cs', o = Ok tt ∧ cs' = C a (<[i / 8 := f v]> vs) :: F).
Proof.
  intros E. eapply (ok_rd_own _ _ 0 _ (i / 8)); [reflexivity|done|done|].
  unfold wr. eapply (ok_write _ _ 0 _ (i / 8)); [reflexivity|by eapply lookup_lt_Some|done|]. by apply ok_done.
Qed.
(** [d]: the other bitset, or the same *)
Lemma ok_b_and R F a b l1 l2 vs ws n : length vs = n → length ws = n →
  (∃ t1 t2, C b (t1 ++ ws ++ t2) ∈ R ++ F ∧ length t1 = length l1) ∨ b = a ∧ ws = vs →
  ok R (C a (l1 ++ vs ++ l2) :: F) (b_and (a + length l1) (b + length l1) n) (λ o cs',
    o = Ok tt ∧ cs' = C a (l1 ++ zip_with Nat.land vs ws ++ l2) :: F).
Proof.
  intros <-. revert l1 ws. induction vs as [|v vs IH]; intros l1 ws L O; destruct ws as [|w ws]; try done; cbn [b_and length].
  { by apply ok_done. }
  eapply (ok_rd_own _ _ 0 _ (length l1)); [reflexivity|by apply lookup_here|done|].
  assert (∃ c, c ∈ R ++ C a (l1 ++ (v :: vs) ++ l2) :: F ∧ vals c !! length l1 = Some w ∧ b + length l1 = at_ c + length l1) as (c & Ic & Ec & Ac).
  { destruct O as [(t1 & t2 & I & E)|[-> [= -> ->]]].
    - exists (C b (t1 ++ (w :: ws) ++ t2)). split_and!; [|cbn [vals]; rewrite <- E; by apply lookup_here|done].
      rewrite elem_of_app, elem_of_cons in *. tauto.
    - exists (C a (l1 ++ (v :: vs) ++ l2)). split_and!; [|by apply lookup_here|done]. rewrite elem_of_app, elem_of_cons. tauto. }
  eapply (ok_rd _ _ c); [done|done|done|].
  eapply (ok_wr _ _ 0 _ (length l1)); [reflexivity|cbn [vals]; rewrite app_length; cbn [app length]; lia|done|].
  cbn [insert list_insert vals with_vals app]. rewrite insert_here.
  specialize (IH (l1 ++ [Nat.land v w]) ws). rewrite app_length, <- !app_assoc in IH. cbn [length app] in IH.
  replace (S (a + length l1)) with (a + (length l1 + 1)) by lia. replace (S (b + length l1)) with (b + (length l1 + 1)) by lia.
  eapply ok_mono; [apply IH|].
  - by injection L.
  - destruct O as [(t1 & t2 & I & E)|[-> [= -> ->]]]; [left|by right].
    exists (t1 ++ [w]), t2. rewrite <- app_assoc, app_length. cbn [app length]. split; [done|lia].
  - done.
Qed.
Lemma bit_and vs ws j : length vs = length ws →
  bit (zip_with Nat.land vs ws) j = (x ← bit vs j; y ← bit ws j; Some (x && y)).
Proof.
  intros L. unfold bit. rewrite lookup_zip_with.
  destruct (vs !! (j / 8)), (ws !! (j / 8)); cbn; [|done..]. by rewrite Nat.land_spec.
Qed.
Lemma filter_seq_shift (f g : nat → bool) (k s n : nat) : (∀ i, f (k + i) = g i) →
  length (List.filter f (seq (k + s) n)) = length (List.filter g (seq s n)).
Proof.
  intros H. revert s. induction n as [|n IH]; intros s; [done|]. cbn [seq List.filter].
  rewrite H. specialize (IH (S s)). rewrite Nat.add_succ_r in IH. destruct (g s); cbn [length]; by rewrite IH.
Qed.
Lemma filter_ext_seq (f g : nat → bool) (s n : nat) : (∀ i, s ≤ i < s + n → f i = g i) →
  List.filter f (seq s n) = List.filter g (seq s n).
Proof.
  intros H. apply filter_ext_in. intros i I. apply in_seq in I. by apply H.
Qed.
Lemma count_bits vs : sum_list_with popcount vs =
  length (List.filter (λ i, bool_decide (bit vs i = Some true)) (seq 0 (8 * length vs))).
Proof.
  induction vs as [|v vs IH]; [done|]. cbn [sum_list_with length].
  replace (8 * S (length vs)) with (8 + 8 * length vs) by lia.
  rewrite seq_app, List.filter_app, app_length. f_equal.
  - unfold popcount. f_equal. apply filter_ext_seq. intros i L. unfold bit.
    rewrite Nat.div_small, Nat.mod_small by lia. cbn [lookup list_lookup fmap option_fmap option_map].
    destruct (Nat.testbit v i); [by rewrite bool_decide_eq_true_2|by rewrite bool_decide_eq_false_2].
  - rewrite IH. symmetry. apply (filter_seq_shift _ _ 8 0). intros i. apply bool_decide_ext. unfold bit.
    replace (8 + i) with (i + 1 * 8) by lia. rewrite Nat.div_add, Nat.mod_add by lia.
    by rewrite Nat.add_1_r.
Qed.

(** ** optional *)
Definition opt a (x : option nat) cs : Prop :=
  match x with Some v => cs = [C a [v; 1]] | None => ∃ v, cs = [C a [v; 0]] end.
Lemma opt_cell a x cs : opt a x cs → ∃ v, cs = [C a [v; if x then 1 else 0]] ∧ (x = Some v ∨ x = None).
Proof. destruct x as [v|]; cbn [opt]; [intros ->; eauto|intros [v ->]; eauto]. Qed.
Section optional.
Context (R : list chunk).
Lemma ok_o_has_value cs a x ca : opt a x ca → ca ⊆ R ++ cs → ok R cs (o_has_value a) (λ o cs', o = Ok (bool_decide (is_Some x)) ∧ cs' = cs).
Proof.
  intros O S. apply opt_cell in O as (v & -> & _). unfold o_has_value.
  eapply (ok_rd _ _ _ 1); [apply S; left|reflexivity|done|]. apply ok_done. split; [|done]. by destruct x.
Qed.
Lemma ok_o_value cs a x ca : opt a x ca → ca ⊆ R ++ cs →
  ok R cs (o_value a) (λ o cs', o = match x with Some v => Ok v | None => Exn BadAccess end ∧ cs' = cs).
Proof.
  intros O S. apply opt_cell in O as (v & -> & E). unfold o_value.
  eapply (ok_rd _ _ _ 1); [apply S; left|reflexivity|done|]. destruct x as [w|]; [|by apply ok_done].
  destruct E as [[= ->]|]; [|done]. eapply (ok_read _ _ _ 0); [apply S; left|reflexivity|cbn [at_]; lia|]. by apply ok_done.
Qed.
Lemma ok_o_assign F a x ca v : opt a x ca → ok R (ca ++ F) (o_assign a v) (λ o cs', o = Ok tt ∧ cs' = C a [v; 1] :: F).
Proof.
  intros O. apply opt_cell in O as (w & -> & _). unfold o_assign. cbn [app]. rdo 0 1. destruct x; cbn [Nat.eqb].
  - wrl 0 0. by apply ok_done.
  - wro 0 0. wrl 0 1. by apply ok_done.
Qed.
Lemma ok_o_assign_from F a x ca b w : opt a x ca → C b [w; 1] ∈ R ++ F →
  ok R (ca ++ F) (o_assign_from a b) (λ o cs', o = Ok tt ∧ cs' = C a [w; 1] :: F).
Proof.
  intros O I. apply opt_cell in O as (v & -> & _). unfold o_assign_from. cbn [app]. rdo 0 1.
  assert (C b [w; 1] ∈ R ++ C a [v; if x then 1 else 0] :: F) as I' by (rewrite elem_of_app, elem_of_cons in *; tauto).
  destruct x; cbn [Nat.eqb].
  - eapply (ok_rd _ _ _ 0); [apply I'|reflexivity|cbn [at_]; lia|]. wrl 0 0. by apply ok_done.
  - eapply (ok_rd _ _ _ 0); [apply I'|reflexivity|cbn [at_]; lia|]. wro 0 0. wrl 0 1. by apply ok_done.
Qed.
Lemma ok_o_reset F a x ca : opt a x ca → ok R (ca ++ F) (o_reset a) (λ o cs', o = Ok tt ∧ ∃ v, cs' = C a [v; 0] :: F).
Proof.
  intros O. apply opt_cell in O as (w & -> & _). unfold o_reset. cbn [app]. rdo 0 1. destruct x; cbn [Nat.eqb].
  - unfold destroy_n. cbn [replicate write_n]. apply bind_assoc. wro 0 0. cbn [bind ret]. wrl 0 1. apply ok_done. eauto.
  - apply ok_done. eauto.
Qed.
Lemma ok_o_copy_assign F a x ca b y cb : opt a x ca → opt b y cb → cb ⊆ R ++ F → a ≠ b →
  ok R (ca ++ F) (o_copy_assign a b) (λ o cs', o = Ok tt ∧ ∃ ca', cs' = ca' ++ F ∧ opt a y ca').
Proof.
  intros O O' S N. unfold o_copy_assign. rewrite (proj2 (Nat.eqb_neq a b)) by done.
  apply opt_cell in O' as (w & -> & E).
  eapply (ok_rd _ _ _ 1); [apply (inside_frame _ ca) in S; apply S; left|reflexivity|done|].
  destruct y as [y|]; cbn [Nat.eqb].
  - destruct E as [[= ->]|]; [|done]. eapply ok_mono; [by eapply ok_o_assign_from; [|apply S; left]|].
    intros o cs' [-> ->]. split; [done|]. by exists [C a [w; 1]].
  - eapply ok_mono; [by eapply ok_o_reset|]. intros o cs' [-> [v ->]]. split; [done|]. exists [C a [v; 0]].
    split; [done|]. by exists v.
Qed.
End optional.
