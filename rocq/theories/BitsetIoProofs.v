(** Proofs about the bitset stream operators and bit references. *)
From stdpp Require Import prelude gmap.
From Coq Require Import ZArith Ascii Lia.
From Verif Require Import Cpp BitsetModel BitsetSpec BitsetIoModel BitsetProofs.
Local Open Scope nat_scope.

Lemma print_loop_spec Size b l n : rep Size b l → n ≤ Size →
  print_loop Size n b = Ok (text (take n l)) b.
Proof.
  intros Hr. induction n as [|n IH]; intros Hn; cbn [print_loop].
  { unfold text. by rewrite take_0. }
  unfold bind, bs_test. rewrite (at_rep _ _ l) by (done || lia). rewrite IH by lia.
  unfold ret. f_equal. unfold text.
  destruct (lookup_lt_is_Some_2 l n) as [x Hx]; [destruct Hr; lia|].
  rewrite (take_S_r l n x) by done. rewrite reverse_app. cbn.
  rewrite sbit_lookup, Hx. by destruct x.
Qed.

Lemma print_spec Size b l : rep Size b l → bs_print Size b = Ok (text l) b.
Proof.
  intros Hr. unfold bs_print. rewrite (print_loop_spec _ _ l) by done.
  by rewrite take_ge by (destruct Hr; lia).
Qed.

(** ** Streams *)
Definition is_ok (s : istream) : Prop := eofbit s = false ∧ failbit s = false ∧ badbit s = false.
Definition after (s : istream) (used r : list ascii) : istream :=
  IStream r (rev used ++ past s) (eofbit s) (failbit s) (badbit s) (skipws s).

Lemma good_ok s : is_ok s → good s = true.
Proof. intros (H1 & H2 & H3). unfold good. by rewrite H1, H2, H3. Qed.

Lemma get_char s c r : is_ok s → rest s = c :: r → is_get s = (Some c, after s [c] r).
Proof. intros Hs E. unfold is_get, sentry. rewrite (good_ok s Hs). cbn. by rewrite E. Qed.
Lemma get_eof s : is_ok s → rest s = [] →
  is_get s = (None, IStream [] (past s) true true false (skipws s)).
Proof.
  intros Hs E. unfold is_get, sentry. rewrite (good_ok s Hs). cbn. rewrite E.
  destruct Hs as (H1 & H2 & H3). unfold setstate. by rewrite E, H1, H2, H3.
Qed.
Lemma unget_char s c r : is_ok s → is_unget (after s [c] r) = after s [] (c :: r).
Proof.
  intros (H1 & H2 & H3). unfold is_unget, sentry, good, after. cbn. by rewrite H1, H2, H3.
Qed.
Lemma unget_eof p k : is_unget (IStream [] p true true false k) = IStream [] p false true false k.
Proof. done. Qed.

Lemma is_digit_digit d : is_digit (digit d) = true.
Proof. by destruct d. Qed.

(** One digit *)
Lemma digit_step Size b l d : Size ≠ 0 → rep Size b l →
  ∃ b', (∀ st, (on_fst (bs_shl Size 1) ;;;
               (if Ascii.eqb (digit d) "1" then on_fst (bs_set_at Size 0 true) else ret tt)) (b, st) = Ok tt (b', st : istream)) ∧
        rep Size b' (take Size (d :: l)).
Proof.
  intros HS Hr. destruct (shl_rep Size 1 b l Hr) as (b1 & E1 & Hr1).
  assert (s_shl Size 1 l = take Size (false :: l)) as Es by done. rewrite Es in Hr1. destruct d; cbn [digit].
  - destruct (set_at_rep Size b1 _ 0 true Hr1) as (b2 & E2 & Hr2); [lia|].
    exists b2. split.
    + intros st. unfold bind, on_fst. cbn [fst snd]. rewrite E1. cbn [fst snd].
      change (on_fst (bs_set_at Size 0 true) (b1, st) = Ok tt (b2, st)).
      unfold on_fst. cbn [fst snd]. by rewrite E2.
    + destruct Size; [done|]. done.
  - exists b1. split; [|done]. intros st. unfold bind, on_fst. cbn [fst snd]. rewrite E1. done.
Qed.

(** the loop after the first digit *)
Lemma extract_loop_true Size n ds tl b l s :
  Size ≠ 0 → rep Size b l → is_ok s → rest s = chars ds ++ tl → length ds ≤ n →
  (length ds < n → match tl with [] => True | c :: _ => is_digit c = false end) →
  ∃ b', rep Size b' (take Size (reverse ds ++ l)) ∧
    extract_loop Size n true (b, s) =
      Ok tt (b', if (length ds <? n) && (if tl then true else false)
                 then IStream [] (rev (chars ds) ++ past s) false true false (skipws s)
                 else after s (chars ds) tl).
Proof.
  intros HS. revert ds b l s. induction n as [|n IH]; intros ds b l s Hr Hs Hrest Hlen Hstop; cbn [extract_loop].
  { destruct ds; [|cbn in Hlen; lia]. exists b. split.
    - cbn. rewrite take_ge by (destruct Hr; lia). done.
    - unfold ret. cbn in *. destruct s; cbn in *; subst. done. }
  destruct ds as [|d ds].
  - cbn in Hrest. specialize (Hstop ltac:(cbn; lia)). exists b. split.
    { cbn. rewrite take_ge by (destruct Hr; lia). done. }
    unfold bind, stream_get. cbn [fst snd]. destruct tl as [|c tl].
    + rewrite get_eof by done. unfold stream_mod, ret. cbn [fst snd]. done.
    + rewrite (get_char s c tl) by done. rewrite Hstop. unfold stream_mod, ret. cbn [fst snd].
      rewrite unget_char by done. by rewrite andb_false_r.
  - cbn in Hrest, Hlen.
    destruct (digit_step Size b l d HS Hr) as (b1 & E1 & Hr1).
    assert (is_ok (after s [digit d] (chars ds ++ tl))) as Hs1 by done.
    destruct (IH ds b1 _ (after s [digit d] (chars ds ++ tl)) Hr1 Hs1) as (b' & Hr' & E'); [done|lia| |].
    { intros. apply Hstop. cbn. lia. }
    exists b'. split.
    + rewrite reverse_cons, <-app_assoc. cbn [app].
      replace (take Size (reverse ds ++ d :: l)) with (take Size (reverse ds ++ take Size (d :: l))); [done|].
      rewrite !firstn_app, take_take. f_equal. f_equal. lia.
    + unfold bind at 1, stream_get. cbn [fst snd]. rewrite (get_char s (digit d) (chars ds ++ tl)) by done.
      rewrite is_digit_digit. unfold bind at 1, ret at 1.
      specialize (E1 (after s [digit d] (chars ds ++ tl))). unfold bind in E1 |- *.
      destruct (on_fst (bs_shl Size 1) (b, after s [digit d] (chars ds ++ tl))) as [u st| | |] eqn:E0; try done.
      rewrite E1. rewrite E'. f_equal. f_equal.
      change (length (d :: ds) <? S n) with (length ds <? n).
      destruct ((length ds <? n) && _).
      * unfold after. cbn. by rewrite <-app_assoc.
      * unfold after. cbn. by rewrite <-app_assoc.
Qed.

(** the whole loop, at least one digit present *)
Lemma extract_loop_false Size d ds tl b l s :
  rep Size b l → is_ok s → rest s = chars (d :: ds) ++ tl → length (d :: ds) ≤ Size →
  (length (d :: ds) < Size → match tl with [] => True | c :: _ => is_digit c = false end) →
  ∃ b', rep Size b' (denotes Size (d :: ds)) ∧
    extract_loop Size Size false (b, s) =
      Ok tt (b', if (length (d :: ds) <? Size) && (if tl then true else false)
                 then IStream [] (rev (chars (d :: ds)) ++ past s) false true false (skipws s)
                 else after s (chars (d :: ds)) tl).
Proof.
  intros Hr Hs Hrest Hlen Hstop. cbn in Hlen.
  assert (∃ n, Size = S n) as [n En] by (destruct Size; [lia|eauto]).
  destruct (reset_all_rep Size b l Hr) as (b0 & E0 & Hr0).
  destruct (digit_step Size b0 _ d ltac:(lia) Hr0) as (b1 & E1 & Hr1).
  assert (is_ok (after s [digit d] (chars ds ++ tl))) as Hs1 by done.
  destruct (extract_loop_true Size n ds tl b1 _ _ ltac:(lia) Hr1 Hs1) as (b' & Hr' & E'); [done|lia| |].
  { intros. apply Hstop. cbn. lia. }
  exists b'. split.
  - unfold denotes. rewrite reverse_cons, <-app_assoc. cbn [app length].
    replace (reverse ds ++ d :: replicate (Size - S (length ds)) false)
      with (take Size (reverse ds ++ take Size (d :: ((λ _, false) <$> l)))); [done|].
    assert ((λ _ : bool, false) <$> l = replicate Size false) as ->.
    { destruct Hr as [<- _ _ _]. clear. induction l; cbn; [done|by f_equal]. }
    rewrite !firstn_app, take_take. rewrite take_ge by (rewrite reverse_length; lia). f_equal.
    rewrite reverse_length. rewrite En. replace (S n - length ds) with (S (n - length ds)) by lia.
    replace (S (n - length ds) `min` S n) with (S (n - length ds)) by lia. cbn [take]. f_equal.
    rewrite take_replicate. f_equal. lia.
  - rewrite En at 2. cbn [extract_loop]. unfold bind at 1, stream_get. cbn [fst snd]. cbn in Hrest.
    rewrite (get_char s (digit d) (chars ds ++ tl)) by done. rewrite is_digit_digit.
    unfold bind at 1, on_fst at 1. cbn [fst snd]. rewrite E0.
    specialize (E1 (after s [digit d] (chars ds ++ tl))). unfold bind in E1 |- *. cbn [fst snd].
    destruct (on_fst (bs_shl Size 1) (b0, after s [digit d] (chars ds ++ tl))) as [u st| | |] eqn:E2; try done.
    rewrite E1, E'. f_equal. f_equal. rewrite En.
    change (length (d :: ds) <? S n) with (length ds <? n).
    destruct ((length ds <? n) && _); unfold after; cbn; by rewrite <-app_assoc.
Qed.

Lemma extract_loop_none Size c tl b s :
  Size ≠ 0 → is_ok s → rest s = c :: tl → is_digit c = false →
  extract_loop Size Size false (b, s) = Ok tt (b, setstate false true false s).
Proof.
  intros HS Hs Hrest Hc. destruct Size; [done|]. cbn [extract_loop].
  unfold bind, stream_get. cbn [fst snd]. rewrite (get_char s c tl) by done. rewrite Hc.
  unfold stream_mod. cbn [fst snd]. rewrite unget_char by done. unfold after. cbn. rewrite <-Hrest. by destruct s.
Qed.

(** space, tab, line feed, vertical tab, form feed, carriage return *)
Definition whitespace : list ascii := [" "; "009"; "010"; "011"; "012"; "013"]%char.
Lemma isspace_whitespace c : isspace c = bool_decide (c ∈ whitespace).
Proof. by destruct c as [[] [] [] [] [] [] [] []]; vm_compute. Qed.
Lemma isspace_yes c : c ∈ whitespace → isspace c = true.
Proof. rewrite isspace_whitespace. apply bool_decide_eq_true_2. Qed.
Lemma isspace_no c : c ∉ whitespace → isspace c = false.
Proof. rewrite isspace_whitespace. apply bool_decide_eq_false_2. Qed.
Lemma isspace_all ws : Forall (λ c, c ∈ whitespace) ws → forallb isspace ws = true.
Proof. induction 1 as [|c ws H _ IH]; [done|]. cbn [forallb]. by rewrite isspace_yes, IH. Qed.
Lemma skip_spaces_spec ws r p : forallb isspace ws = true →
  match r with [] => True | c :: _ => isspace c = false end →
  skip_spaces (ws ++ r) p = (r, rev ws ++ p).
Proof.
  revert p. induction ws as [|c ws IH]; intros p Hws Hr.
  - cbn. destruct r as [|c r]; [done|]. cbn. by rewrite Hr.
  - cbn in Hws. apply andb_true_iff in Hws as [H1 H2]. cbn [app skip_spaces]. rewrite H1, IH by done.
    cbn. by rewrite <-app_assoc.
Qed.

(** what is skipped before the digits: whitespace, if the stream skips whitespace *)
Definition leading (s : istream) (ws : list ascii) : Prop :=
  if skipws s then Forall (λ c, c ∈ whitespace) ws else ws = [].
Lemma sentry_spec ws c r s : is_ok s → leading s ws → rest s = ws ++ c :: r →
  (skipws s = true → c ∉ whitespace) →
  sentry false s = (true, after s ws (c :: r)).
Proof.
  intros Hs Hws Hr Hc. unfold sentry. rewrite (good_ok s Hs). unfold leading in Hws. destruct (skipws s) eqn:Hk; cbn [orb negb].
  - rewrite Hr, skip_spaces_spec by auto using isspace_all, isspace_no. unfold after. by rewrite Hk.
  - subst ws. destruct s; cbn in *; subst. destruct Hs as (?&?&?); cbn in *; by subst.
Qed.
Lemma sentry_blank s : is_ok s → skipws s = true → Forall (λ c, c ∈ whitespace) (rest s) →
  sentry false s = (false, IStream [] (rev (rest s) ++ past s) true true false true).
Proof.
  intros Hs Hk Hws. unfold sentry. rewrite (good_ok s Hs), Hk. cbn [orb negb].
  rewrite <-(app_nil_r (rest s)) at 1. rewrite skip_spaces_spec by auto using isspace_all.
  destruct Hs as (H1 & H2 & H3). unfold setstate. cbn. by rewrite H1, H2, H3.
Qed.

Lemma digit_nospace d : digit d ∉ whitespace.
Proof. apply (bool_decide_eq_false_1 (digit d ∈ whitespace)). by destruct d. Qed.
Lemma no_digit c : (∀ d, c ≠ digit d) → is_digit c = false.
Proof.
  intros H. unfold is_digit. apply orb_false_iff. split; apply Ascii.eqb_neq; [exact (H false)|exact (H true)].
Qed.
Lemma ok_after s u r : is_ok s → is_ok (after s u r).
Proof. done. Qed.

(** Extraction, all cases with readable input *)
Lemma extract_digits Size ws d ds tl b l s :
  rep Size b l → is_ok s → leading s ws →
  rest s = ws ++ chars (d :: ds) ++ tl → length (d :: ds) ≤ Size →
  (length (d :: ds) < Size → match tl with [] => True | c :: _ => is_digit c = false end) →
  ∃ b', rep Size b' (denotes Size (d :: ds)) ∧
    bs_extract Size (b, s) =
      Ok tt (b', if (length (d :: ds) <? Size) && (if tl then true else false)
                 then IStream [] (rev (ws ++ chars (d :: ds)) ++ past s) false true false (skipws s)
                 else after s (ws ++ chars (d :: ds)) tl).
Proof.
  intros Hr Hs Hws Hrest Hlen Hstop. unfold bs_extract. cbn [fst snd].
  rewrite (sentry_spec ws (digit d) (chars ds ++ tl)) by (done || intros; apply digit_nospace).
  destruct (extract_loop_false Size d ds tl b l (after s ws (digit d :: chars ds ++ tl)))
    as (b' & Hr' & E'); [done|by apply ok_after|done|done|done|].
  exists b'. split; [done|]. rewrite E'. f_equal. f_equal.
  rewrite rev_app_distr.
  destruct ((length (d :: ds) <? Size) && _); unfold after; cbn -[chars]; rewrite ?rev_app_distr, <-!app_assoc; done.
Qed.

Lemma extract_other Size ws c tl b s :
  Size ≠ 0 → is_ok s → leading s ws → rest s = ws ++ c :: tl →
  (skipws s = true → c ∉ whitespace) → is_digit c = false →
  bs_extract Size (b, s) = Ok tt (b, setstate false true false (after s ws (c :: tl))).
Proof.
  intros HS Hs Hws Hrest Hc Hd. unfold bs_extract. cbn [fst snd].
  rewrite (sentry_spec ws c tl) by done. apply (extract_loop_none _ c tl); done.
Qed.

Lemma extract_blank Size b s : is_ok s → skipws s = true → Forall (λ c, c ∈ whitespace) (rest s) →
  bs_extract Size (b, s) = Ok tt (b, IStream [] (rev (rest s) ++ past s) true true false true).
Proof. intros. unfold bs_extract. cbn [fst snd]. by rewrite sentry_blank. Qed.

(** nothing to read, whitespace not being skipped *)
Lemma extract_end Size b s : Size ≠ 0 → is_ok s → skipws s = false → rest s = [] →
  bs_extract Size (b, s) = Ok tt (b, IStream [] (past s) false true false false).
Proof.
  intros HS Hs Hk Hr. unfold bs_extract, sentry. cbn [fst snd]. rewrite (good_ok s Hs), Hk. cbn [orb negb].
  destruct Size; [done|]. cbn [extract_loop]. unfold bind, stream_get. cbn [fst snd]. rewrite get_eof by done.
  unfold stream_mod. cbn [fst snd]. rewrite Hk. done.
Qed.
(** a stream that is not good *)
Lemma extract_bad Size b s : good s = false → bs_extract Size (b, s) = Ok tt (b, setstate false true false s).
Proof. intros Hg. unfold bs_extract, sentry. cbn [fst snd]. by rewrite Hg. Qed.

(** ** References *)
Lemma ref_to_bool_diverges Size fuel r w : is_Some (w !! r_self r) → ref_to_bool Size fuel r w = None.
Proof.
  intros [b Hb]. induction fuel as [|fuel IH]; [done|]. cbn [ref_to_bool].
  unfold subscript, self_expr, bind, peek_bs. rewrite Hb. unfold ret. by destruct r.
Qed.

Lemma ref_swap_noop Size fuel a b w r : is_Some (w !! r_self a) →
  ref_swap Size fuel a b w = Some r → r = Ok tt w ∧ r_index a = r_index b.
Proof.
  intros Ha E. unfold ref_swap in E. destruct (Nat.eqb_spec (r_index a) (r_index b)).
  - by injection E as <-.
  - by rewrite ref_to_bool_diverges in E.
Qed.
