(** Property C87: printing strings and bitsets. *)
From stdpp Require Import prelude gmap.
From Coq Require Import ZArith Ascii Lia.
From Verif Require Import Cpp OutModel.
From Verif Require BitsetModel BitsetSpec BitsetIoModel BitsetProofs BitsetIoProofs.
From Verif Require StringModel StringMem StringRep StringSpec StringOrder StringOrderProofs StringHistory StringProps.
From Verif Require IterModel IterSpec ViewModel ArrayRefSpec ArrayRefProofs StringRefModel StringRefSpec StringRefProofs StringRefProps.
Local Open Scope nat_scope.

(** ** Specification *)
Section spec.
Context {A : Type}.
Implicit Types (s : ostream A) (t : list A).
Definition stream_ok s : Prop := f_eof s = false ∧ f_fail s = false ∧ f_bad s = false.
(** a field: the text, padded to the width *)
Definition padded (w : nat) (f : A) (left : bool) t : list A :=
  let p := replicate (w - length t) f in if left then t ++ p else p ++ t.
(** the good stream [s] received the characters [t], as far as there was room, and became [s'] *)
Definition received s s' t : Prop :=
  match room s with
  | None => written s' = written s ++ t ∧ room s' = None ∧ f_fail s' = false
  | Some r => written s' = written s ++ take r t ∧ room s' = Some (r - length t) ∧ (f_fail s' = true ↔ r < length t)
  end ∧ f_eof s' = false ∧ f_bad s' = false ∧ fill s' = fill s ∧ a_left s' = a_left s.
(** the stream has not changed but for failbit being set *)
Definition only_failed s s' : Prop :=
  written s' = written s ∧ room s' = room s ∧ f_fail s' = true ∧ f_eof s' = f_eof s ∧ f_bad s' = f_bad s ∧
  width s' = width s ∧ fill s' = fill s ∧ a_left s' = a_left s.
End spec.

(** ** Streams *)
Section stream.
Context {A : Type}.
Implicit Types (s : ostream A) (t : list A).
Lemma good_ok s : stream_ok s → os_good s = true.
Proof. intros (H1 & H2 & H3). unfold os_good. by rewrite H1, H2, H3. Qed.
Lemma good_not s : ¬ stream_ok s → os_good s = false.
Proof. unfold stream_ok, os_good. destruct (f_eof s), (f_fail s), (f_bad s); try done. intros H. by destruct H. Qed.
Lemma insert_ok t s : stream_ok s → received s (os_insert t s) (padded (width s) (fill s) (a_left s) t) ∧ width (os_insert t s) = 0.
Proof.
  intros Hs. unfold os_insert. rewrite (good_ok _ Hs). destruct Hs as (H1 & H2 & H3). unfold received, sputn, padded.
  set (u := if a_left s then _ else _). destruct (room s) as [r|]; cbn [written width room f_eof f_fail f_bad fill a_left]; [|by rewrite H2].
  rewrite H2. cbn [orb]. by rewrite Nat.ltb_lt.
Qed.
Lemma insert_failed t s : ¬ stream_ok s → only_failed s (os_insert t s).
Proof. intros Hs. unfold os_insert. by rewrite (good_not _ Hs). Qed.
Lemma failed_not_ok s s' : only_failed s s' → ¬ stream_ok s'.
Proof. intros (_ & _ & H & _) (_ & H' & _). congruence. Qed.
Lemma failed_trans s s1 s2 : only_failed s s1 → only_failed s1 s2 → only_failed s s2.
Proof.
  intros (H1 & H2 & H3 & H4 & H5 & H6 & H7 & H8) (K1 & K2 & K3 & K4 & K5 & K6 & K7 & K8).
  repeat split; congruence.
Qed.
Lemma padded_0 f l t : padded 0 f l t = t.
Proof. unfold padded. cbn [Nat.sub replicate]. destruct l; by rewrite ?app_nil_r. Qed.
Lemma padded_ge w f l t : w ≤ length t → padded w f l t = t.
Proof. intros Hw. unfold padded. rewrite (proj2 (Nat.sub_0_le _ _) Hw). cbn [replicate]. destruct l; by rewrite ?app_nil_r. Qed.
Lemma padded_length w f l t : length (padded w f l t) = w `max` length t.
Proof. unfold padded. destruct l; rewrite app_length, replicate_length; lia. Qed.
(** first [t], then [u] *)
Lemma received_app s s1 s2 t u :
  received s s1 t → (if f_fail s1 then only_failed s1 s2 else received s1 s2 u) → received s s2 (t ++ u).
Proof.
  unfold received. intros [Hr (H1 & H2 & H3 & H4)] H. destruct (room s) as [r|].
  - destruct Hr as (Hw & Hr & Hf). destruct (f_fail s1) eqn:E1.
    + apply proj1 in Hf. specialize (Hf eq_refl). destruct H as (K1 & K2 & K3 & K4 & K5 & K6 & K7 & K8).
      split; [|by repeat split; congruence]. split; [|split].
      * rewrite K1, Hw. f_equal. by rewrite take_app_le by lia.
      * rewrite K2, Hr, app_length. f_equal. lia.
      * rewrite K3, app_length. split; [lia|done].
    + assert (Hlt : length t ≤ r) by (apply not_gt; intros ?; by apply Hf in H0). rewrite Hr in H.
      destruct H as [(K1 & K2 & K3) (K4 & K5 & K6 & K7)].
      split; [|by repeat split; congruence]. split; [|split].
      * rewrite K1, Hw, <-app_assoc. f_equal. rewrite (take_ge t) by lia.
        rewrite take_app_ge by lia. done.
      * rewrite K2, app_length. f_equal. lia.
      * rewrite K3, app_length. lia.
  - destruct Hr as (Hw & Hr & Hf). rewrite Hf, Hr in H. destruct H as [(K1 & K2 & K3) (K4 & K5 & K6 & K7)].
    split; [|by repeat split; congruence]. split; [|done]. by rewrite K1, Hw, app_assoc.
Qed.
Lemma received_nil s : stream_ok s → received s s [].
Proof.
  intros (H1 & H2 & H3). unfold received. destruct (room s) as [r|] eqn:E; cbn [length]; rewrite ?take_nil, ?app_nil_r, ?Nat.sub_0_r, ?H2.
  - repeat split; try done. lia.
  - done.
Qed.
Lemma received_ok s s' t : received s s' t → f_fail s' = false → stream_ok s'.
Proof. intros (_ & H1 & H2 & _) H. by repeat split. Qed.
End stream.

(** ** Strings *)
Section string.
Import StringModel StringMem StringRep StringSpec StringOrder StringOrderProofs StringHistory StringProps.
Context `{C : StrCfg} (Hcfg : cfg_ok).
Lemma str_out_eq w m x l s : reachable w m → m !! x = Some l → str_out x (w, s) = Ok tt (w, os_insert l s).
Proof.
  intros Hre Hx. destruct (reachable_valid Hcfg _ _ Hre) as (ρ & HR & Hrel).
  destruct (view_of_eq Hcfg w ρ m (AStr x) l HR Hrel Hx) as (f & E & Hf).
  unfold str_out, bind, with_os. cbn [fst snd]. rewrite E. cbn [fst snd].
  rewrite (view_chars_eq w ρ f l HR Hf (length l) 0) by lia. by rewrite drop_0.
Qed.
(** a string is printed as one field: all its characters, null characters included *)
Theorem C87_string w m x l s :
  reachable w m → m !! x = Some l → stream_ok s →
  ∃ s', str_out x (w, s) = Ok tt (w, s') ∧ received s s' (padded (width s) (fill s) (a_left s) l) ∧ width s' = 0.
Proof. intros Hre Hx Hs. rewrite (str_out_eq w m x l) by done. eexists. split; [done|]. by apply insert_ok. Qed.
Theorem C87_string_failed w m x l s :
  reachable w m → m !! x = Some l → ¬ stream_ok s → ∃ s', str_out x (w, s) = Ok tt (w, s') ∧ only_failed s s'.
Proof. intros Hre Hx Hs. rewrite (str_out_eq w m x l) by done. eexists. split; [done|]. by apply insert_failed. Qed.
End string.

Section string_ref.
Import IterModel ViewModel ArrayRefSpec ArrayRefProofs StringRefModel StringRefSpec StringRefProofs StringRefProps.
Context `{C : ViewCfg} `{H : StringOrder.HashFn} (Hw : (1 ≤ wbits)%Z).
Lemma sr_out_eq (w : world char) (st : state char) x v l s :
  reachable w st → s_view st !! x = Some v → elems st v = Some l → sr_out x (w, s) = Ok tt (w, os_insert l s).
Proof.
  intros Hr Hx Hl. destruct (sr_reachable_rep _ _ Hw Hr) as [-> Hwf]. pose proof (elems_usable _ _ _ _ Hwf Hx Hl) as Hv.
  destruct (elems_range _ _ _ Hv Hl) as [Hra Hc]. unfold sr_out, bind, with_os. cbn [fst snd].
  rewrite (sr_view_rep _ _ _ Hw Hx Hv). cbn [fst snd]. rewrite <-Hc, Nat2Z.id. by rewrite (sv_chars_run _ _ _ Hra).
Qed.
Theorem C87_string_ref (w : world char) (st : state char) x v l s :
  reachable w st → s_view st !! x = Some v → elems st v = Some l → stream_ok s →
  ∃ s', sr_out x (w, s) = Ok tt (w, s') ∧ received s s' (padded (width s) (fill s) (a_left s) l) ∧ width s' = 0.
Proof. intros Hr Hx Hl Hs. rewrite (sr_out_eq w st x v l) by done. eexists. split; [done|]. by apply insert_ok. Qed.
Theorem C87_string_ref_failed (w : world char) (st : state char) x v l s :
  reachable w st → s_view st !! x = Some v → elems st v = Some l → ¬ stream_ok s →
  ∃ s', sr_out x (w, s) = Ok tt (w, s') ∧ only_failed s s'.
Proof. intros Hr Hx Hl Hs. rewrite (sr_out_eq w st x v l) by done. eexists. split; [done|]. by apply insert_failed. Qed.
End string_ref.

(** ** Bitsets *)
Section bitset.
Import BitsetModel BitsetSpec BitsetProofs BitsetIoProofs.
(** the characters a bitset sends to a stream of the given width: only the first digit is padded *)
Definition bits_field (w : nat) (f : ascii) (left : bool) (t : list ascii) : list ascii :=
  match t with [] => [] | c :: t' => padded w f left [c] ++ t' end.

Lemma text_S l n : (n < length l) → text (take (S n) l) = digit (sbit l n) :: text (take n l).
Proof.
  intros Hn. unfold text, chars. destruct (lookup_lt_is_Some_2 l n) as [x Hx]; [done|].
  rewrite (take_S_r l n x) by done. rewrite reverse_app. cbn. by rewrite sbit_lookup, Hx.
Qed.
Lemma out_step Size b l n s : rep Size b l → n < Size →
  bs_out_loop Size (S n) (b, s) = bs_out_loop Size n (b, os_insert [digit (sbit l n)] s).
Proof.
  intros Hr Hn. cbn [bs_out_loop]. unfold bind, with_os, bs_test, insert_os. cbn [fst snd].
  rewrite (at_rep _ _ l) by done. cbn [fst snd]. by destruct (sbit l n).
Qed.
Lemma out_failed Size b l : rep Size b l → ∀ n s, n ≤ Size → ¬ stream_ok s → n ≠ 0 →
  ∃ s', bs_out_loop Size n (b, s) = Ok tt (b, s') ∧ only_failed s s'.
Proof.
  intros Hr. induction n as [|n IH]; intros s Hn Hs H0; [done|]. rewrite (out_step _ _ l) by (done || lia).
  pose proof (insert_failed [digit (sbit l n)] s Hs) as Hf. destruct n as [|n]; [by eexists|].
  destruct (IH (os_insert [digit (sbit l (S n))] s)) as (s' & E & Hs'); [lia|by eapply failed_not_ok|done|].
  exists s'. split; [done|]. by eapply failed_trans.
Qed.
Lemma out_ok Size b l : rep Size b l → ∀ n s, n ≤ Size → stream_ok s →
  ∃ s', bs_out_loop Size n (b, s) = Ok tt (b, s') ∧
    received s s' (bits_field (width s) (fill s) (a_left s) (text (take n l))) ∧ width s' = (if n =? 0 then width s else 0).
Proof.
  intros Hr. induction n as [|n IH]; intros s Hn Hs.
  { exists s. split; [done|]. split; [by apply received_nil|done]. }
  rewrite (out_step _ _ l) by (done || lia). pose proof (rep_bits _ _ _ Hr) as Hl.
  rewrite text_S by lia. cbn [bits_field Nat.eqb]. destruct (insert_ok [digit (sbit l n)] s Hs) as [Hi Hw]. set (s1 := os_insert _ s) in *.
  destruct (f_fail s1) eqn:Ef.
  - destruct n as [|n].
    + exists s1. split; [done|]. split; [|done]. eapply received_app; [exact Hi|]. rewrite Ef. by repeat split.
    + destruct (out_failed Size b l Hr (S n) s1) as (s' & E & Hs'); [lia| |done|].
      { intros (_ & ? & _). congruence. }
      exists s'. split; [done|]. split; [eapply received_app; [exact Hi|by rewrite Ef]|].
      destruct Hs' as (_ & _ & _ & _ & _ & -> & _). done.
  - destruct (IH s1) as (s' & E & Hs' & Hw'); [lia|by eapply received_ok|]. exists s'. split; [done|].
    rewrite Hw in Hs', Hw'. split; [|by rewrite Hw'; destruct (n =? 0)].
    eapply received_app; [exact Hi|]. rewrite Ef.
    destruct (text (take n l)) as [|c t]; [done|]. cbn [bits_field] in Hs'. by rewrite padded_ge in Hs' by (cbn; lia).
Qed.

Theorem C87_bitset_behaviour wbits Size b l s :
  reachable wbits Size b → shows Size b l → stream_ok s →
  ∃ s', bs_out Size (b, s) = Ok tt (b, s') ∧
    received s s' (bits_field (width s) (fill s) (a_left s) (text l)) ∧ width s' = (if Size =? 0 then width s else 0).
Proof.
  intros Hb Hs Hok. assert (rep Size b l) as Hr by (by eapply reachable_shows_rep).
  destruct (out_ok Size b l Hr Size s) as (s' & E & H); [lia|done|]. exists s'. split; [done|].
  pose proof (rep_bits _ _ _ Hr) as Hl. by rewrite take_ge in H by lia.
Qed.
(** without a width (or one that is too small to matter) the digits are printed like a string of
    them, and the text of C07 reaches the stream *)
Theorem C87_bitset_partial wbits Size b l s :
  reachable wbits Size b → shows Size b l → stream_ok s → width s ≤ 1 → width s ≤ Size →
  ∃ s', bs_out Size (b, s) = Ok tt (b, s') ∧ BitsetIoModel.bs_print Size b = Ok (text l) b ∧
    received s s' (text l) ∧ text l = padded (width s) (fill s) (a_left s) (text l) ∧ width s' = 0.
Proof.
  intros Hb Hs Hok Hw HwS. destruct (C87_bitset_behaviour wbits Size b l s) as (s' & E & Hr & Hw'); [done..|].
  assert (rep Size b l) as Hrep by (by eapply reachable_shows_rep). exists s'. split; [done|]. split; [by apply print_spec|].
  assert (length (text l) = Size) as Ht by (unfold text, chars; rewrite fmap_length, reverse_length; by destruct Hrep).
  split; [|split].
  - destruct (text l) as [|c t]; [done|]. cbn [bits_field] in Hr. by rewrite padded_ge in Hr by (cbn; lia).
  - by rewrite padded_ge by lia.
  - rewrite Hw'. destruct (Nat.eqb_spec Size 0); [lia|done].
Qed.
(** with a width the digits are not printed as one field, whatever the bits and the stream *)
Theorem C87_bitset_refuted wbits Size b l s :
  reachable wbits Size b → shows Size b l → stream_ok s → room s = None → 2 ≤ width s → 2 ≤ Size →
  ∃ s', bs_out Size (b, s) = Ok tt (b, s') ∧ length (written s') = length (written s) + (width s + Size - 1) ∧
    written s' ≠ written s ++ padded (width s) (fill s) (a_left s) (text l).
Proof.
  intros Hb Hs Hok Hroom Hw HS. destruct (C87_bitset_behaviour wbits Size b l s) as (s' & E & Hr & _); [done..|].
  assert (rep Size b l) as Hrep by (by eapply reachable_shows_rep). exists s'. split; [done|].
  assert (length (text l) = Size) as Ht by (unfold text, chars; rewrite fmap_length, reverse_length; by destruct Hrep).
  unfold received in Hr. rewrite Hroom in Hr. destruct Hr as [(-> & _) _].
  assert (length (bits_field (width s) (fill s) (a_left s) (text l)) = width s + Size - 1) as Hl.
  { destruct (text l) as [|c t]; [cbn in Ht; lia|]. cbn [bits_field length] in *. rewrite app_length, padded_length. cbn [length]. lia. }
  split; [rewrite app_length; lia|]. intros Heq. apply app_inv_head in Heq. apply (f_equal length) in Heq.
  rewrite Hl, padded_length, Ht in Heq. lia.
Qed.
(** a bitset without bits neither prints the padding nor resets the width *)
Theorem C87_bitset_empty_refuted wbits b s :
  reachable wbits 0 b → stream_ok s → 1 ≤ width s →
  bs_out 0 (b, s) = Ok tt (b, s) ∧ length (padded (width s) (fill s) (a_left s) []) = width s.
Proof. intros _ Hok Hw. split; [done|]. rewrite padded_length. cbn [length]. lia. Qed.
Theorem C87_bitset_failed wbits Size b l s :
  reachable wbits Size b → shows Size b l → ¬ stream_ok s → 1 ≤ Size →
  ∃ s', bs_out Size (b, s) = Ok tt (b, s') ∧ only_failed s s'.
Proof.
  intros Hb Hs Hok HS. assert (rep Size b l) as Hr by (by eapply reachable_shows_rep). apply (out_failed Size b l Hr); [lia|done|lia].
Qed.
End bitset.

(** ** Examples *)
Section examples.
Import BitsetModel BitsetSpec BitsetIoModel.
Local Open Scope char_scope.
Definition plain {A} (w : nat) (f : A) (left : bool) (r : option nat) : ostream A := OStream [] w f left r false false false.
(** setw(4) and setfill('*'), left; a width of 0; room for two characters *)
Example C87_bitset_case :
  shows 3 [5]%Z [true; false; true] ∧ reachable 64 3 [5]%Z ∧
  bs_out 3 ([5]%Z, plain 0 "*" false None) = Ok tt ([5]%Z, OStream ["1"; "0"; "1"] 0 "*" false None false false false) ∧
  bs_out 3 ([5]%Z, plain 4 "*" true None) = Ok tt ([5]%Z, OStream ["1"; "*"; "*"; "*"; "0"; "1"] 0 "*" true None false false false) ∧
  bs_out 3 ([5]%Z, plain 4 "*" false (Some 5)) = Ok tt ([5]%Z, OStream ["*"; "*"; "*"; "1"; "0"] 0 "*" false (Some 0) false true false) ∧
  bs_out 0 ([], plain 4 "*" false None) = Ok tt ([], plain 4 "*" false None).
Proof.
  split; [|split].
  - split; [done|]. intros i Hi. destruct i as [|[|[|i]]]; [by vm_compute..|lia].
  - exists [BNewInt 0 5]. eexists _, _, 0. split; [by vm_compute|done].
  - by vm_compute.
Qed.
(** what is printed to such a stream is not read back: 101 becomes 1 *)
Theorem C87_round_trip_refuted : ∃ b s, reachable 64 3 b ∧ stream_ok s ∧ a_left s = true ∧ fill s = " " ∧ width s = 4 ∧
  ∃ s', bs_out 3 (b, s) = Ok tt (b, s') ∧ 
    ∃ b' i, bs_extract 3 ([0]%Z, IStream (written s') [] false false false true) = Ok tt (b', i) ∧ bs_eq 3 b b' = false.
Proof.
  exists [5]%Z, (plain 4 " " true None). split; [exists [BNewInt 0 5]; eexists _, _, 0; split; [by vm_compute|done]|].
  do 4 (split; [done|]). eexists. split; [by vm_compute|]. eexists _, _. by vm_compute.
Qed.
End examples.

Section string_example.
Import StringModel StringMem StringRep StringSpec StringOrder StringHistory StringProps.
Example C87_string_case : ∃ w m, @reachable good w m ∧
  is abcdef (m !! 0) && is [x61; x00] (m !! 1) &&
  match str_out 0 (w, plain 8 x2a false None) with Ok _ (_, s) => is ([x2a; x2a] ++ abcdef) (Some (written s)) && (width s =? 0) | _ => false end &&
  match str_out 1 (w, plain 4 x2a true None) with Ok _ (_, s) => is [x61; x00; x2a; x2a] (Some (written s)) | _ => false end &&
  match str_out 0 (w, plain 8 x2a false (Some 3)) with Ok _ (_, s) => is [x2a; x2a; x61] (Some (written s)) && f_fail s | _ => false end &&
  match str_out 0 (w, OStream [] 8 x2a false None true false false) with Ok _ (_, s) => is [] (Some (written s)) && f_fail s && (width s =? 8) | _ => false end
  = true.
Proof. apply (check_reachable _ _ (str 0 abcdef ++ str 1 [x61; x00])). by vm_compute. Qed.
End string_example.

Section string_ref_example.
Import IterModel ViewModel ArrayRefSpec StringRefModel StringRefSpec StringRefProps.
Local Existing Instances demo demo_hash.
Example C87_string_ref_case : ∃ w s, reachable w s ∧
    bool_decide (s_view s !! 7%nat = Some (PSub 2 1 3) ∧ elems s (PSub 2 1 3) = Some [x62; x63; xff]) &&
    match srrun demo_script init_world with
    | Finished _ w => match sr_out 7 (w, plain 5 x2a false None) with
                      | Ok _ (_, s) => bool_decide (written s = [x2a; x2a; x62; x63; xff]) | _ => false end
    | _ => false end = true.
Proof. apply (script_reachable (λ s, _) demo_script). by vm_compute. Qed.
End string_ref_example.

Print Assumptions C87_string.
Print Assumptions C87_string_failed.
Print Assumptions C87_string_ref.
Print Assumptions C87_string_ref_failed.
Print Assumptions C87_bitset_behaviour.
Print Assumptions C87_bitset_partial.
Print Assumptions C87_bitset_refuted.
Print Assumptions C87_bitset_empty_refuted.
Print Assumptions C87_bitset_failed.
Print Assumptions C87_round_trip_refuted.
