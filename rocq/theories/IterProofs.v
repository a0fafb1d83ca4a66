(** Iterators are positions. *)
From stdpp Require Import prelude.
From Coq Require Import ZArith Lia.
From Verif Require Import Cpp IterModel IterSpec.
Local Open Scope Z_scope.

Section proofs.
Context {S B A : Type} `{EqDecision B} `{R : !Arrays S B A}.
Implicit Types (p q : pointer B) (w : S) (l : list A).

Lemma noexcept_ok {T} (m : M S T) w a w' : m w = Ok a w' → noexcept m w = Ok a w'.
Proof. unfold noexcept. by intros ->. Qed.

Lemma pos_0 p : pos p 0 = p.
Proof. destruct p as [|b o]; [done|]. cbn [pos]. f_equal. lia. Qed.
Lemma pos_pos p i j : pos (pos p i) j = pos p (i + j).
Proof. destruct p as [|b o]; [done|]. cbn [pos]. f_equal. lia. Qed.
Lemma null_inside w l i : range_at w (Null : pointer B) l → inside l i → i = 0.
Proof. cbn [range_at]. intros -> [??]. cbn [length] in *. lia. Qed.
Lemma null_elem w l i v : range_at w (Null : pointer B) l → elem l i = Some v → False.
Proof. cbn [range_at]. intros ->. unfold elem. by case_decide. Qed.
Lemma elem_inside l i v : elem l i = Some v → 0 ≤ i < Z.of_nat (length l).
Proof. unfold elem. case_decide; [|done]. intros E%lookup_lt_Some. lia. Qed.

Lemma padd_run w p l i n : range_at w p l → inside l i → inside l (i + n) → padd (pos p i) n w = Ok (pos p (i + n)) w.
Proof.
  intros H Hi Hn. destruct p as [|b o]; cbn [pos padd].
  - pose proof (null_inside _ _ _ H Hi). pose proof (null_inside _ _ _ H Hn). by replace n with 0 by lia.
  - destruct H as (Ho & (len & He & Hl) & _). rewrite He. destruct Hi, Hn.
    rewrite (proj2 (Z.leb_le _ _)), (proj2 (Z.leb_le _ _)) by lia. cbn. do 2 f_equal. lia.
Qed.
Lemma pdiff_run w p l i j : range_at w p l → inside l i → inside l j → pdiff (pos p i) (pos p j) w = Ok (i - j) w.
Proof.
  intros H Hi Hj. destruct p as [|b o]; cbn [pos pdiff].
  - pose proof (null_inside _ _ _ H Hi). pose proof (null_inside _ _ _ H Hj). by subst.
  - destruct H as (_ & (len & He & _) & _). rewrite decide_True, He by done. f_equal. lia.
Qed.
Lemma pos_eq w p l i j : range_at w p l → inside l i → inside l j → pos p i = pos p j ↔ i = j.
Proof.
  intros H Hi Hj. destruct p as [|b o]; cbn [pos].
  - pose proof (null_inside _ _ _ H Hi). pose proof (null_inside _ _ _ H Hj). by subst.
  - split; [intros [= ?]; lia|by intros ->].
Qed.
Lemma peq_run w p l i j : range_at w p l → inside l i → inside l j → peq (pos p i) (pos p j) w = Ok (bool_decide (i = j)) w.
Proof. intros H Hi Hj. unfold peq, ret. f_equal. apply bool_decide_ext. by eapply pos_eq. Qed.
Lemma plt_run w p l i j : range_at w p l → inside l i → inside l j → plt (pos p i) (pos p j) w = Ok (bool_decide (i < j)) w.
Proof.
  intros H Hi Hj. unfold plt, bind. rewrite (pdiff_run _ _ _ _ _ H Hi Hj). unfold ret. f_equal.
  destruct (Z.ltb_spec (i - j) 0); symmetry; [apply bool_decide_eq_true|apply bool_decide_eq_false]; lia.
Qed.
Lemma pread_run w p l i v : range_at w p l → elem l i = Some v → pread (pos p i) w = Ok v w.
Proof.
  intros H Hv. destruct p as [|b o]; cbn [pos pread]; [by destruct (null_elem _ _ _ _ H Hv)|].
  pose proof (elem_inside _ _ _ Hv) as Hi. unfold elem in Hv. rewrite decide_True in Hv by lia.
  destruct H as (_ & _ & H). specialize (H _ _ Hv). by rewrite Z2Nat.id in H by lia.
Qed.
Lemma pderef_run w p l i v : range_at w p l → elem l i = Some v → pderef (pos p i) w = Ok (pos p i) w.
Proof.
  intros H Hv. destruct p as [|b o]; cbn [pos pderef]; [by destruct (null_elem _ _ _ _ H Hv)|].
  pose proof (elem_inside _ _ _ Hv) as Hi. destruct H as (Ho & (len & He & Hl) & _). rewrite He.
  rewrite (proj2 (Z.leb_le _ _)), (proj2 (Z.ltb_lt _ _)) by lia. done.
Qed.

(** ** Operators *)
Lemma it_inc_run w p l i v : range_at w p l → elem l i = Some v → it_inc (pos p i) w = Ok (pos p (i + 1)) w.
Proof. intros H Hv. pose proof (elem_inside _ _ _ Hv). apply noexcept_ok. eapply padd_run; [done|split; lia..]. Qed.
Lemma it_dec_run w p l i : range_at w p l → inside l i → 0 < i → it_dec (pos p i) w = Ok (pos p (i - 1)) w.
Proof. intros H [??] Hi. apply noexcept_ok. replace (i - 1) with (i + -1) by lia. eapply padd_run; [done|split; lia..]. Qed.
Lemma it_add_run w p l i n : range_at w p l → inside l i → inside l (i + n) → it_add (pos p i) n w = Ok (pos p (i + n)) w.
Proof. intros H Hi Hn. do 2 apply noexcept_ok. by eapply padd_run. Qed.
Lemma it_sub_run w p l i n : range_at w p l → inside l i → inside l (i - n) → it_sub (pos p i) n w = Ok (pos p (i - n)) w.
Proof. intros H Hi Hn. do 2 apply noexcept_ok. replace (i - n) with (i + - n) by lia. by eapply padd_run. Qed.
Lemma it_deref_run w p l i v : range_at w p l → elem l i = Some v → it_deref (pos p i) w = Ok (pos p i) w.
Proof. intros H Hv. apply noexcept_ok. by eapply pderef_run. Qed.
Lemma it_diff_run w p l i j : range_at w p l → inside l i → inside l j → it_diff (pos p i) (pos p j) w = Ok (i - j) w.
Proof. intros H Hi Hj. apply noexcept_ok. by eapply pdiff_run. Qed.
Lemma it_eq_run w p l i j : range_at w p l → inside l i → inside l j → it_eq (pos p i) (pos p j) w = Ok (bool_decide (i = j)) w.
Proof. intros H Hi Hj. apply noexcept_ok. by eapply peq_run. Qed.
Lemma it_ne_run w p l i j : range_at w p l → inside l i → inside l j → it_ne (pos p i) (pos p j) w = Ok (bool_decide (i ≠ j)) w.
Proof.
  intros H Hi Hj. apply noexcept_ok. unfold bind. rewrite (it_eq_run _ _ _ _ _ H Hi Hj). unfold ret. f_equal.
  by rewrite bool_decide_not.
Qed.
Lemma it_lt_run w p l i j : range_at w p l → inside l i → inside l j → it_lt (pos p i) (pos p j) w = Ok (bool_decide (i < j)) w.
Proof. intros H Hi Hj. apply noexcept_ok. by eapply plt_run. Qed.
Lemma it_gt_run w p l i j : range_at w p l → inside l i → inside l j → it_gt (pos p i) (pos p j) w = Ok (bool_decide (j < i)) w.
Proof. intros H Hi Hj. apply noexcept_ok. by eapply it_lt_run. Qed.
Lemma it_le_run w p l i j : range_at w p l → inside l i → inside l j → it_le (pos p i) (pos p j) w = Ok (bool_decide (i ≤ j)) w.
Proof.
  intros H Hi Hj. apply noexcept_ok. unfold bind. rewrite (it_gt_run _ _ _ _ _ H Hi Hj). unfold ret. f_equal.
  rewrite <-bool_decide_not. apply bool_decide_ext. lia.
Qed.
Lemma it_ge_run w p l i j : range_at w p l → inside l i → inside l j → it_ge (pos p i) (pos p j) w = Ok (bool_decide (j ≤ i)) w.
Proof.
  intros H Hi Hj. apply noexcept_ok. unfold bind. rewrite (it_lt_run _ _ _ _ _ H Hi Hj). unfold ret. f_equal.
  rewrite <-bool_decide_not. apply bool_decide_ext. lia.
Qed.

(** ** Loops *)
Lemma elem_lookup l (i : nat) : elem l (Z.of_nat i) = l !! i.
Proof. unfold elem. rewrite decide_True by lia. by rewrite Nat2Z.id. Qed.
Lemma drop_elem l k v l' : drop k l = v :: l' → l !! k = Some v ∧ drop (Datatypes.S k) l = l' ∧ (k < length l)%nat.
Proof.
  intros E. assert (l !! k = Some v) as Hk by (rewrite <-(Nat.add_0_r k), <-lookup_drop, E; done).
  split; [done|]. split; [|by eapply lookup_lt_Some]. rewrite <-Nat.add_1_r, <-drop_drop, E. done.
Qed.
Lemma for_each_from w p l : range_at w p l → ∀ l' k fuel, drop k l = l' → (k ≤ length l)%nat → (length l' ≤ fuel)%nat →
  for_each fuel (pos p (Z.of_nat k)) (pos p (Z.of_nat (length l))) w =
    Ok (Some (imap (λ i v, (pos p (Z.of_nat (k + i)), v)) l')) w.
Proof.
  intros H l'. induction l' as [|v l' IH]; intros k fuel E Hk Hf; unfold for_each.
  - assert (length (drop k l) = 0%nat) as Hd by by rewrite E. rewrite drop_length in Hd.
    replace k with (length l) by lia. destruct fuel; cbn [loop]; unfold bind; rewrite (it_ne_run _ _ _ _ _ H) by (split; lia);
      (rewrite bool_decide_eq_false_2 by (by intros []); done).
  - apply drop_elem in E as (Hv & E & Hlt). destruct fuel as [|fuel]; [cbn in Hf; lia|]. cbn [loop]. unfold bind.
    rewrite (it_ne_run _ _ _ _ _ H) by (split; lia). rewrite bool_decide_eq_true_2 by lia.
    rewrite <-elem_lookup in Hv. rewrite (it_deref_run _ _ _ _ _ H Hv), (pread_run _ _ _ _ _ H Hv), (it_inc_run _ _ _ _ _ H Hv).
    replace (Z.of_nat k + 1) with (Z.of_nat (Datatypes.S k)) by lia.
    unfold for_each in IH. rewrite (IH _ fuel E) by (cbn in Hf; lia). unfold ret. cbn [imap fmap option_fmap option_map].
    do 2 f_equal. rewrite Nat.add_0_r. f_equal. apply imap_ext. intros i x _. cbn. do 2 f_equal. lia.
Qed.
Lemma for_each_run w p l fuel : range_at w p l → (length l ≤ fuel)%nat →
  for_each fuel p (pos p (Z.of_nat (length l))) w = Ok (Some (visits p l)) w.
Proof.
  intros H Hf. pose proof (for_each_from w p l H l 0 fuel eq_refl) as E. change (Z.of_nat 0) with 0 in E. rewrite pos_0 in E.
  rewrite E by lia. done.
Qed.

Lemma take_elem l k : (Datatypes.S k ≤ length l)%nat → ∃ v, l !! k = Some v ∧ take (Datatypes.S k) l = take k l ++ [v].
Proof. intros Hk. destruct (lookup_lt_is_Some_2 l k) as [v Hv]; [lia|]. exists v. split; [done|]. by apply take_S_r. Qed.
Lemma for_each_reverse_from w p l : range_at w p l → ∀ k fuel, (k ≤ length l)%nat → (k ≤ fuel)%nat →
  for_each_reverse fuel (pos p (Z.of_nat k)) p w = Ok (Some (reverse (visits p (take k l)))) w.
Proof.
  intros H k. induction k as [|k IH]; intros fuel Hk Hf; unfold for_each_reverse.
  - destruct fuel; cbn [loop]; unfold bind, ri_ne; rewrite <-(pos_0 p) at 2; rewrite (it_ne_run _ _ _ _ _ H) by (split; lia);
      (rewrite bool_decide_eq_false_2 by (by intros []); done).
  - destruct (take_elem l k Hk) as (v & Hv & ->). destruct fuel as [|fuel]; [lia|]. cbn [loop]. unfold bind.
    assert (ri_ne (pos p (Z.of_nat (Datatypes.S k))) p w = Ok true w) as ->.
    { unfold ri_ne. rewrite <-(pos_0 p) at 2. rewrite (it_ne_run _ _ _ _ _ H) by (split; lia). by rewrite bool_decide_eq_true_2 by lia. }
    assert (it_dec (pos p (Z.of_nat (Datatypes.S k))) w = Ok (pos p (Z.of_nat k)) w) as Hd.
    { rewrite (it_dec_run _ _ _ _ H) by (try split; lia). do 2 f_equal. lia. }
    rewrite <-elem_lookup in Hv.
    assert (ri_deref (pos p (Z.of_nat (Datatypes.S k))) w = Ok (pos p (Z.of_nat k)) w) as ->.
    { unfold ri_deref, bind. by rewrite Hd, (it_deref_run _ _ _ _ _ H Hv). }
    assert (ri_inc (pos p (Z.of_nat (Datatypes.S k))) w = Ok (pos p (Z.of_nat k)) w) as Hd' by exact Hd.
    rewrite (pread_run _ _ _ _ _ H Hv), Hd'.
    unfold for_each_reverse in IH. rewrite (IH fuel) by lia. unfold ret. cbn [fmap option_fmap option_map]. do 2 f_equal.
    unfold visits. rewrite imap_app. cbn [imap]. rewrite reverse_snoc. do 3 f_equal. cbn. f_equal. rewrite take_length. lia.
Qed.
Lemma for_each_reverse_run w p l fuel : range_at w p l → (length l ≤ fuel)%nat →
  for_each_reverse fuel (pos p (Z.of_nat (length l))) p w = Ok (Some (reverse (visits p l))) w.
Proof. intros H Hf. rewrite (for_each_reverse_from w p l H) by lia. by rewrite take_ge. Qed.

(** ** Ranges *)
Lemma visits_snd p l : snd <$> visits p l = l.
Proof. unfold visits. rewrite fmap_imap. induction l as [|v l IH] using rev_ind; [done|]. rewrite imap_app. cbn [imap]. rewrite IH. done. Qed.
Lemma visits_lookup p l i : visits p l !! i = (λ v, (pos p (Z.of_nat i), v)) <$> l !! i.
Proof. unfold visits. by rewrite list_lookup_imap. Qed.
Lemma visits_NoDup w p l : range_at w p l → NoDup (fst <$> visits p l).
Proof.
  intros H. apply NoDup_alt. intros i j q. rewrite !list_lookup_fmap, !visits_lookup.
  destruct (l !! i) as [v|] eqn:Hi; [|done]. destruct (l !! j) as [u|] eqn:Hj; [|done]. cbn. intros [= <-] [= E].
  apply lookup_lt_Some in Hi, Hj. symmetry in E. apply (pos_eq w p l) in E; [lia|done|split; lia..].
Qed.
Lemma visits_read w p l q v : range_at w p l → (q, v) ∈ visits p l → pread q w = Ok v w.
Proof.
  intros H [i Hi]%elem_of_list_lookup. rewrite visits_lookup in Hi. destruct (l !! i) as [u|] eqn:E; [|done]. injection Hi as <- <-.
  eapply pread_run; [done|]. by rewrite elem_lookup.
Qed.
Lemma spans_traversed w b e rb re l : spans w b e rb re l → traversed w b e rb re l.
Proof.
  intros (p & Hb & He & Hrb & Hre & H). exists (visits p l). split; [apply visits_snd|]. split; [by eapply visits_NoDup|].
  split; [intros q v; by apply visits_read|]. split; intros fuel Hf.
  - unfold range_for, bind. rewrite Hb, He. by apply for_each_run.
  - unfold range_for_reverse, bind. rewrite Hrb, Hre. by apply for_each_reverse_run.
Qed.
End proofs.
