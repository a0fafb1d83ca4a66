(** Property C61: iterators, in general and of array_ref and string_ref. *)
From stdpp Require Import prelude gmap.
From Coq Require Import ZArith Lia.
From Verif Require Import Cpp IterModel IterSpec IterProofs ViewModel ArrayRefModel ArrayRefSpec ArrayRefProofs.
From Verif Require StringOrder StringRefModel StringRefSpec StringRefProofs.
Local Open Scope Z_scope.

(** ** Random access, for iterators into any range [l] that starts at [p] *)
Section laws.
Context {S B A : Type} `{EqDecision B} `{R : !Arrays S B A}.
Implicit Types (p q : pointer B) (w : S) (l : list A).

(** it + n, n + it, it += n are the same position; - n and -= n lead back; the distance is n *)
Theorem C61_add_sub w p l i n :
  range_at w p l → inside l i → inside l (i + n) →
  ∃ r, it_add (pos p i) n w = Ok r w ∧ it_add_l n (pos p i) w = Ok r w ∧ it_add_assign (pos p i) n w = Ok r w ∧
    it_sub r n w = Ok (pos p i) w ∧ it_sub_assign r n w = Ok (pos p i) w ∧
    it_diff r (pos p i) w = Ok n w ∧ it_diff (pos p i) r w = Ok (- n) w ∧
    it_sub (pos p i) (- n) w = Ok r w.
Proof.
  intros H Hi Hn. exists (pos p (i + n)). pose proof (it_add_run _ _ _ _ _ H Hi Hn) as Ha.
  assert (inside l (i + n - n)) as Hb by (by replace (i + n - n) with i by lia).
  pose proof (it_sub_run _ _ _ _ _ H Hn Hb) as Hs. replace (i + n - n) with i in Hs by lia.
  split; [done|]. split; [by apply noexcept_ok|]. split; [apply noexcept_ok; by eapply padd_run|]. split; [done|].
  split; [apply noexcept_ok; replace i with (i + n + - n) at 2 by lia; eapply padd_run; [done|done|]; by replace (i + n + - n) with i by lia|].
  split; [rewrite (it_diff_run _ _ _ _ _ H Hn Hi); f_equal; lia|]. split; [rewrite (it_diff_run _ _ _ _ _ H Hi Hn); f_equal; lia|].
  assert (inside l (i - - n)) as Hc by (by replace (i - - n) with (i + n) by lia).
  rewrite (it_sub_run _ _ _ _ _ H Hi Hc). do 2 f_equal. lia.
Qed.
(** it[n] is *(it + n), the (i + n)-th element *)
Theorem C61_index w p l i n v :
  range_at w p l → inside l i → elem l (i + n) = Some v →
  ∃ r, it_add (pos p i) n w = Ok r w ∧ it_index (pos p i) n w = Ok r w ∧ it_deref r w = Ok r w ∧ it_arrow r w = Ok r w ∧ pread r w = Ok v w.
Proof.
  intros H Hi Hv. exists (pos p (i + n)). pose proof (elem_inside _ _ _ Hv) as Hn.
  assert (inside l (i + n)) as Hin by (split; lia). pose proof (it_add_run _ _ _ _ _ H Hi Hin) as Ha.
  pose proof (it_deref_run _ _ _ _ _ H Hv) as Hd. split; [done|]. split; [apply noexcept_ok; unfold bind; by rewrite Ha|].
  split; [done|]. split; [by apply noexcept_ok|]. by eapply pread_run.
Qed.
(** ++ and -- step to the next and the previous position; the postfix forms return the old one *)
Theorem C61_steps w p l i v :
  range_at w p l → elem l i = Some v →
  ∃ r, it_add (pos p i) 1 w = Ok r w ∧ it_inc (pos p i) w = Ok r w ∧ it_postinc (pos p i) w = Ok (r, pos p i) w ∧
    it_dec r w = Ok (pos p i) w ∧ it_postdec r w = Ok (pos p i, r) w.
Proof.
  intros H Hv. exists (pos p (i + 1)). pose proof (elem_inside _ _ _ Hv) as Hn.
  assert (inside l i) as Hi by (split; lia). assert (inside l (i + 1)) as Hi1 by (split; lia).
  pose proof (it_inc_run _ _ _ _ _ H Hv) as Hinc. assert (it_dec (pos p (i + 1)) w = Ok (pos p i) w) as Hdec.
  { rewrite (it_dec_run _ _ _ _ H) by (done || lia). do 2 f_equal. lia. }
  split; [by eapply it_add_run|]. split; [done|]. split; [apply noexcept_ok; unfold bind; by rewrite Hinc|].
  split; [done|]. apply noexcept_ok. unfold bind. by rewrite Hdec.
Qed.
(** the comparisons agree with the distance, and with the positions *)
Theorem C61_order w p l i j :
  range_at w p l → inside l i → inside l j →
  ∃ d, it_diff (pos p i) (pos p j) w = Ok d w ∧ d = i - j ∧
    it_eq (pos p i) (pos p j) w = Ok (d =? 0) w ∧ it_ne (pos p i) (pos p j) w = Ok (negb (d =? 0)) w ∧
    it_lt (pos p i) (pos p j) w = Ok (d <? 0) w ∧ it_gt (pos p i) (pos p j) w = Ok (0 <? d) w ∧
    it_le (pos p i) (pos p j) w = Ok (d <=? 0) w ∧ it_ge (pos p i) (pos p j) w = Ok (0 <=? d) w.
Proof.
  intros H Hi Hj. exists (i - j). split; [by eapply it_diff_run|]. split; [done|].
  rewrite (it_eq_run _ _ _ _ _ H Hi Hj), (it_ne_run _ _ _ _ _ H Hi Hj), (it_lt_run _ _ _ _ _ H Hi Hj), (it_gt_run _ _ _ _ _ H Hi Hj),
    (it_le_run _ _ _ _ _ H Hi Hj), (it_ge_run _ _ _ _ _ H Hi Hj).
  assert (∀ (P : Prop) `{Decision P} b, (b = true ↔ P) → Ok (bool_decide P) w = Ok b w) as E.
  { intros P ? b Hb. f_equal. destruct b; [apply bool_decide_eq_true|apply bool_decide_eq_false]; naive_solver. }
  repeat split; apply E; rewrite ?negb_true_iff, ?Z.eqb_eq, ?Z.eqb_neq, ?Z.ltb_lt, ?Z.leb_le; lia.
Qed.
(** a default constructed iterator is the end of an empty range *)
Theorem C61_default w : range_at w (it_default : pointer B) ([] : list A) ∧
  for_each 0 (it_default : pointer B) it_default w = Ok (Some []) w ∧ it_eq (it_default : pointer B) it_default w = Ok true w.
Proof.
  split; [done|]. split.
  - pose proof (for_each_run w (it_default : pointer B) ([] : list A) 0) as E. by apply E.
  - rewrite <-(pos_0 (it_default : pointer B)). rewrite (it_eq_run w it_default []); by try split.
Qed.
(** a loop from [p] over the elements sees each once, in order, and does not stop early *)
Theorem C61_loop w p l fuel :
  range_at w p l →
  for_each fuel p (pos p (Z.of_nat (length l))) w = Ok (if decide (length l ≤ fuel)%nat then Some (visits p l) else None) w.
Proof.
  intros H. destruct (decide _) as [Hf|Hf]; [by apply for_each_run|].
  assert (∀ fuel k, (fuel + k < length l)%nat → for_each fuel (pos p (Z.of_nat k)) (pos p (Z.of_nat (length l))) w = Ok None w) as Hnone.
  { clear fuel Hf. intros fuel. induction fuel as [|fuel IH]; intros k Hk; unfold for_each; cbn [loop]; unfold bind.
    - rewrite (it_ne_run _ _ _ _ _ H) by (split; lia). by rewrite bool_decide_eq_true_2 by lia.
    - rewrite (it_ne_run _ _ _ _ _ H) by (split; lia). rewrite bool_decide_eq_true_2 by lia.
      destruct (lookup_lt_is_Some_2 l k) as [v Hv]; [lia|]. rewrite <-elem_lookup in Hv.
      rewrite (it_deref_run _ _ _ _ _ H Hv), (pread_run _ _ _ _ _ H Hv), (it_inc_run _ _ _ _ _ H Hv).
      replace (Z.of_nat k + 1) with (Z.of_nat (Datatypes.S k)) by lia. unfold for_each in IH. by rewrite (IH (Datatypes.S k)) by lia. }
  specialize (Hnone fuel 0%nat). change (Z.of_nat 0) with 0 in Hnone. rewrite pos_0 in Hnone. apply Hnone. lia.
Qed.
End laws.

(** ** array_ref and string_ref *)
Section array_ref.
Context `{C : ViewCfg} {A : Type} (Hw : 1 ≤ wbits).
Theorem C61_array_ref (w : world A) (s : state A) x v (l : list A) :
  reachable w s → s_view s !! x = Some v → elems s v = Some l →
  traversed w (ar_begin x) (ar_end x) (ar_rbegin x) (ar_rend x) l.
Proof.
  intros Hr Hx Hl. destruct (reachable_rep _ _ Hw Hr) as [-> H]. assert (view_of s x = Some v) as Hv by (unfold view_of; by rewrite Hx, Hl).
  apply (view_usable _ _ _ H) in Hv as [_ Hv]. destruct (elems_range _ _ _ Hv Hl) as [Hra Hc].
  apply spans_traversed. exists (start v). rewrite Hc. split; [apply noexcept_ok; by apply data_rep|].
  split; [by apply end_rep|]. split; [apply noexcept_ok; by apply end_rep|]. split; [do 2 apply noexcept_ok; by apply data_rep|done].
Qed.
End array_ref.
Section string_ref.
Import StringRefModel StringRefSpec StringRefProofs.
Context `{C : ViewCfg} `{H : StringOrder.HashFn} (Hw : 1 ≤ wbits).
Theorem C61_string_ref (w : world char) (s : state char) x v (l : list char) :
  reachable w s → s_view s !! x = Some v → elems s v = Some l →
  traversed w (sr_begin x) (sr_end x) (sr_rbegin x) (sr_rend x) l.
Proof.
  intros Hr Hx Hl. destruct (sr_reachable_rep _ _ Hw Hr) as [-> Hwf]. assert (view_of s x = Some v) as Hv by (unfold view_of; by rewrite Hx, Hl).
  apply (view_usable _ _ _ Hwf) in Hv as [_ Hv]. destruct (elems_range _ _ _ Hv Hl) as [Hra Hc].
  apply spans_traversed. exists (start v). rewrite Hc. split; [apply noexcept_ok; by apply sr_data_rep|].
  split; [by apply sr_end_rep|]. split; [apply noexcept_ok; by apply sr_end_rep|]. split; [do 2 apply noexcept_ok; by apply sr_data_rep|done].
Qed.
End string_ref.

(** ** Examples *)
Section examples.
Local Instance demo : ViewCfg := {| wbits := 64 |}.
Definition demo_world : world nat := World {[1%nat := [10; 11; 12; 13]%nat]} {[1%nat := (At 1%nat 1, At 1%nat 4)]}.
(** the hypotheses: the last three of four elements, positions 1 and 3 *)
Example C61_range_case :
  range_at demo_world (At 1%nat 1) [11; 12; 13]%nat ∧ inside [11; 12; 13]%nat 1 ∧ inside [11; 12; 13]%nat (1 + 2) ∧ elem [11; 12; 13]%nat (0 + 2) = Some 13%nat.
Proof.
  split; [|repeat split; cbn; lia]. split; [done|]. split; [by exists 4|].
  intros i v Hi. destruct i as [|[|[|i]]]; [injection Hi as <-; done..|done].
Qed.
Example C61_loop_case :
  range_for 3 (ar_begin 1) (ar_end 1) demo_world = Ok (Some [(At 1%nat 1, 11%nat); (At 1%nat 2, 12%nat); (At 1%nat 3, 13%nat)]) demo_world ∧
  range_for_reverse 9 (ar_rbegin 1) (ar_rend 1) demo_world = Ok (Some [(At 1%nat 3, 13%nat); (At 1%nat 2, 12%nat); (At 1%nat 1, 11%nat)]) demo_world ∧
  range_for 2 (ar_begin 1) (ar_end 1) demo_world = Ok None demo_world ∧
  it_diff (At 1%nat 4) (At 1%nat 1) demo_world = Ok 3 demo_world ∧
  it_inc (At 1%nat 4) demo_world = Stuck OutOfBounds ∧ it_deref (At 1%nat 4) demo_world = Stuck OutOfBounds ∧
  it_dec (At 1%nat 0) demo_world = Stuck OutOfBounds ∧ it_lt (At 1%nat 0) Null demo_world = Stuck Precondition.
Proof. by vm_compute. Qed.
End examples.

Print Assumptions C61_add_sub.
Print Assumptions C61_index.
Print Assumptions C61_steps.
Print Assumptions C61_order.
Print Assumptions C61_default.
Print Assumptions C61_loop.
Print Assumptions C61_array_ref.
Print Assumptions C61_string_ref.
