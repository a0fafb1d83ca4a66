(** What the programs of ThreadModel.v do with memory of their own. *)
From stdpp Require Import prelude gmap.
From Verif Require Import ThreadModel ThreadSpec ThreadLogic.
Implicit Types (a b p q n i : nat) (vs xs ys : list nat) (c d : chunk) (cs R F : list chunk).

(** ** Steps *)
Section steps.
Context {A : Type}.
Implicit Types (Q : outcome A → list chunk → Prop).
Lemma ok_rd R cs c i v l (k : nat → prog A) Q : c ∈ R ++ cs → vals c !! i = Some v → l = at_ c + i →
  ok R cs (k v) Q → ok R cs (bind (rd l) k) Q.
Proof. apply ok_read. Qed.
Lemma ok_wr R cs n c i v l (k : unit → prog A) Q : cs !! n = Some c → i < length (vals c) → l = at_ c + i →
  ok R (<[n := with_vals c (<[i:=v]> (vals c))]> cs) (k tt) Q → ok R cs (bind (wr l v) k) Q.
Proof. apply ok_write. Qed.
Lemma ok_fr R cs n b vs (k : unit → prog A) Q : cs !! n = Some (B b vs) →
  ok R (delete n cs) (k tt) Q → ok R cs (bind (free b) k) Q.
Proof. apply ok_free. Qed.
Lemma ok_al R cs n (k : nat → prog A) Q : Q (Exn BadAlloc) cs →
  (∀ b vs, b ≠ 0 → length vs = n → ok R (B b vs :: cs) (k b) Q) → ok R cs (bind (alloc n) k) Q.
Proof.
  intros q O. unfold alloc. cbn [bind]. apply ok_alloc; [by apply ok_done|]. intros b vs N L. by apply O.
Qed.
(** a program that returns *)
Lemma ok_then {X} R cs cs' (p : prog X) x (k : X → prog A) Q : ok R cs p (λ o cs1, o = Ok x ∧ cs1 = cs') →
  ok R cs' (k x) Q → ok R cs (bind p k) Q.
Proof.
  intros O K. eapply ok_bind; [apply O| |]; [by intros ? ? [[= ->] ->]|by intros ? ? [? ?]].
Qed.
Lemma ok_ret R cs (x : A) : ok R cs (ret x) (λ o cs1, o = Ok x ∧ cs1 = cs).
Proof. by apply ok_done. Qed.
End steps.
Lemma bind_assoc {A X Y} (p : prog A) (k : A → prog X) (f : X → prog Y) : ∀ R cs Q,
  ok R cs (bind p (λ x, bind (k x) f)) Q → ok R cs (bind (bind p k) f) Q.
Proof.
  intros R cs Q O r h SR S D. specialize (O r h SR S D). revert O. generalize (λ o h', ∃ cs', sat cs' h' ∧ Q o cs').
  clear. intros Q. revert h. induction p as [[x|e]|l g IH|l v p IH|n g IH|b p IH]; intros h; cbn [bind wp].
  - done.
  - done.
  - intros (v & E & W). exists v. auto.
  - intros [E W]. auto.
  - intros [W1 W2]. split; [auto|]. intros. apply IH. auto.
  - intros (vs & h' & -> & D & W). exists vs, h'. auto.
Qed.

(** ** Algorithms *)
Lemma with_vals_vals c vs : vals (with_vals c vs) = vs.
Proof. by destruct c. Qed.
Lemma with_vals_at c vs : at_ (with_vals c vs) = at_ c.
Proof. by destruct c. Qed.
Lemma with_vals_twice c vs ws : with_vals (with_vals c vs) ws = with_vals c ws.
Proof. by destruct c. Qed.
Lemma with_vals_id c : with_vals c (vals c) = c.
Proof. by destruct c. Qed.
Lemma insert_here xs y ys v : <[length xs := v]> (xs ++ y :: ys) = xs ++ v :: ys.
Proof. rewrite insert_app_r_alt, Nat.sub_diag by lia. done. Qed.
Lemma lookup_here xs y ys : (xs ++ y :: ys) !! length xs = Some y.
Proof. rewrite lookup_app_r, Nat.sub_diag by lia. done. Qed.
Lemma list_insert_twice {X} n (x y : X) (l : list X) : <[n:=x]> (<[n:=y]> l) = <[n:=x]> l.
Proof. apply list_insert_insert. Qed.
Lemma delete_insert_same {X} n (x : X) (l : list X) : delete n (<[n:=x]> l) = delete n l.
Proof. revert n. induction l as [|y l IH]; intros [|n]; [done..|]. cbn. f_equal. apply IH. Qed.

Lemma ok_read_n R cs c l n l1 xs l2 : c ∈ R ++ cs → vals c = l1 ++ xs ++ l2 → l = at_ c + length l1 → n = length xs →
  ok R cs (read_n l n) (λ o cs', o = Ok xs ∧ cs' = cs).
Proof.
  intros I. revert l n l1. induction xs as [|x xs IH]; intros l n l1 E -> ->; cbn [read_n length]; [by apply ok_done|].
  eapply ok_rd; [done| |done|].
  - rewrite E. apply lookup_here.
  - eapply ok_then; [apply (IH _ _ (l1 ++ [x])); [|by rewrite app_length; cbn [length]; lia|done]|by apply ok_done].
    rewrite E, <- app_assoc. done.
Qed.
Lemma ok_write_n R cs n c l l1 old l2 ws : cs !! n = Some c → vals c = l1 ++ old ++ l2 → l = at_ c + length l1 →
  length old = length ws → ok R cs (write_n l ws) (λ o cs', o = Ok tt ∧ cs' = <[n := with_vals c (l1 ++ ws ++ l2)]> cs).
Proof.
  revert cs c l l1 old. induction ws as [|w ws IH]; intros cs c l l1 old Ec E -> L; cbn [write_n].
  - destruct old; [|done]. apply ok_done. split; [done|]. cbn [app] in *. by rewrite <- E, with_vals_id, list_insert_id.
  - destruct old as [|y old]; [done|]. cbn [app] in E.
    eapply ok_wr; [done| |done|].
    { rewrite E, app_length. cbn [length]. lia. }
    rewrite E, insert_here. eapply ok_mono.
    + eapply (IH _ (with_vals c (l1 ++ w :: old ++ l2)) _ (l1 ++ [w]) old).
      * apply list_lookup_insert. by eapply lookup_lt_Some.
      * by rewrite with_vals_vals, <- app_assoc.
      * rewrite with_vals_at, app_length. cbn [length]. lia.
      * cbn [length] in L. lia.
    + cbn beta. intros o cs' [-> ->]. split; [done|].
      by rewrite with_vals_twice, list_insert_twice, <- app_assoc.
Qed.
(** from another chunk *)
Lemma ok_copy_n R cs n c d p k q s1 xs s2 l1 old l2 : cs !! n = Some c → d ∈ R ++ delete n cs →
  vals d = s1 ++ xs ++ s2 → p = at_ d + length s1 → k = length xs →
  vals c = l1 ++ old ++ l2 → q = at_ c + length l1 → length old = length xs →
  ok R cs (copy_n p k q) (λ o cs', o = Ok tt ∧ cs' = <[n := with_vals c (l1 ++ xs ++ l2)]> cs).
Proof.
  revert cs c p k q s1 l1 old. induction xs as [|x xs IH]; intros cs c p k q s1 l1 old Ec Id Ed -> -> E -> L; cbn [copy_n length].
  - destruct old; [|done]. apply ok_done. split; [done|]. cbn [app] in *. by rewrite <- E, with_vals_id, list_insert_id.
  - destruct old as [|y old]; [done|]. cbn [app] in E, Ed.
    eapply ok_rd; [|by rewrite Ed; apply lookup_here|done|].
    { apply elem_of_app. apply elem_of_app in Id as [?|Id]; [by left|right].
      rewrite (delete_Permutation cs n c) by done. by apply elem_of_list_further. }
    eapply ok_wr; [done| |done|].
    { rewrite E, app_length. cbn [length]. lia. }
    rewrite E, insert_here. eapply ok_mono.
    + eapply (IH _ (with_vals c (l1 ++ x :: old ++ l2)) _ _ _ (s1 ++ [x]) (l1 ++ [x]) old).
      * apply list_lookup_insert. by eapply lookup_lt_Some.
      * by rewrite delete_insert_same.
      * by rewrite Ed, <- app_assoc.
      * rewrite app_length. cbn [length]. lia.
      * done.
      * by rewrite with_vals_vals, <- app_assoc.
      * rewrite with_vals_at, app_length. cbn [length]. lia.
      * cbn [length] in L. lia.
    + cbn beta. intros o cs' [-> ->]. split; [done|].
      by rewrite with_vals_twice, list_insert_twice, <- app_assoc.
Qed.
(** within a chunk, towards the front *)
Lemma ok_copy_down R cs n c p k q l1 gap xs l2 : cs !! n = Some c →
  vals c = l1 ++ gap ++ xs ++ l2 → p = at_ c + length l1 + length gap → k = length xs → q = at_ c + length l1 →
  ok R cs (copy_n p k q) (λ o cs', o = Ok tt ∧ cs' = <[n := with_vals c (l1 ++ xs ++ drop (length xs) (gap ++ xs) ++ l2)]> cs).
Proof.
  revert cs c p k q l1 gap. induction xs as [|x xs IH]; intros cs c p k q l1 gap Ec E -> -> ->; cbn [copy_n length].
  - apply ok_done. split; [done|]. rewrite drop_0, app_nil_r. cbn [app] in *. by rewrite <- E, with_vals_id, list_insert_id.
  - eapply (ok_rd _ _ c (length (l1 ++ gap))).
    { apply elem_of_app. right. by eapply elem_of_list_lookup_2. }
    { rewrite E, (app_assoc l1). cbn [app]. apply lookup_here. }
    { rewrite app_length. lia. }
    eapply ok_wr; [done| |done|].
    { rewrite E, !app_length. cbn [length]. lia. }
    assert (∃ y ys, gap ++ x :: xs = y :: ys ++ xs ∧ gap ++ [x] = y :: ys) as (y & ys & E1 & E2).
    { destruct gap as [|g gap]; [by exists x, []|]. exists g, (gap ++ [x]). by rewrite <- app_assoc. }
    assert (vals c = l1 ++ y :: ys ++ xs ++ l2) as E'.
    { rewrite E. change ((x :: xs) ++ l2) with (x :: xs ++ l2). f_equal.
      transitivity ((gap ++ x :: xs) ++ l2); [by rewrite <- app_assoc|]. rewrite E1. cbn [app]. by rewrite <- app_assoc. }
    assert (length ys = length gap) as Ly.
    { apply (f_equal length) in E2. rewrite app_length in E2. cbn [length] in E2. lia. }
    rewrite E', insert_here. eapply ok_mono.
    + eapply (IH _ (with_vals c (l1 ++ x :: ys ++ xs ++ l2)) _ _ _ (l1 ++ [x]) ys).
      * apply list_lookup_insert. by eapply lookup_lt_Some.
      * by rewrite with_vals_vals, <- app_assoc.
      * rewrite with_vals_at, app_length. cbn [length]. lia.
      * done.
      * rewrite with_vals_at, app_length. cbn [length]. lia.
    + cbn beta. intros o cs' [-> ->]. split; [done|].
      rewrite with_vals_twice, list_insert_twice, <- app_assoc, E1. done.
Qed.
Lemma ok_equal_n R cs c d p q n s1 xs s2 t1 ys t2 : c ∈ R ++ cs → d ∈ R ++ cs →
  vals c = s1 ++ xs ++ s2 → vals d = t1 ++ ys ++ t2 → p = at_ c + length s1 → q = at_ d + length t1 →
  n = length xs → n = length ys →
  ok R cs (equal_n p q n) (λ o cs', o = Ok (bool_decide (xs = ys)) ∧ cs' = cs).
Proof.
  intros Ic Id. revert p q n s1 ys t1. induction xs as [|x xs IH]; intros p q n s1 ys t1 Ec Ed -> -> -> L; destruct ys as [|y ys]; try done;
    cbn [equal_n length]; [by apply ok_done|].
  eapply ok_rd; [apply Ic|by rewrite Ec; apply lookup_here|done|].
  eapply ok_rd; [apply Id|by rewrite Ed; apply lookup_here|done|].
  destruct (Nat.eqb_spec x y) as [->|N].
  - eapply ok_mono.
    + apply (IH _ _ _ (s1 ++ [y]) ys (t1 ++ [y])); [by rewrite Ec, <- app_assoc|by rewrite Ed, <- app_assoc|..];
        rewrite ?app_length; cbn [length] in *; lia.
    + cbn beta. intros o cs' [-> ->]. split; [|done]. f_equal. apply bool_decide_ext. split; [by intros ->|by intros [= ->]].
  - apply ok_done. split; [|done]. by rewrite bool_decide_eq_false_2 by congruence.
Qed.
Lemma ok_less_n R cs c d p q n k s1 xs s2 t1 ys t2 : c ∈ R ++ cs → d ∈ R ++ cs →
  vals c = s1 ++ xs ++ s2 → vals d = t1 ++ ys ++ t2 → p = at_ c + length s1 → q = at_ d + length t1 →
  n = length xs → k = length ys →
  ok R cs (less_n p n q k) (λ o cs', o = Ok (lexico xs ys) ∧ cs' = cs).
Proof.
  intros Ic Id. revert p q n k s1 ys t1. induction xs as [|x xs IH]; intros p q n k s1 ys t1 Ec Ed -> -> -> ->; destruct ys as [|y ys];
    cbn [less_n length lexico]; try by apply ok_done.
  eapply ok_rd; [apply Ic|by rewrite Ec; apply lookup_here|done|].
  eapply ok_rd; [apply Id|by rewrite Ed; apply lookup_here|done|].
  destruct (Nat.ltb_spec x y) as [L|L]; [by apply ok_done|].
  eapply ok_rd; [apply Id|by rewrite Ed; apply lookup_here|done|].
  eapply ok_rd; [apply Ic|by rewrite Ec; apply lookup_here|done|].
  destruct (Nat.ltb_spec y x) as [L'|L'].
  - apply ok_done. split; [|done]. destruct (Nat.eqb_spec x y); [lia|done].
  - assert (x = y) as -> by lia. rewrite Nat.eqb_refl. cbn [orb andb].
    apply (IH _ _ _ _ (s1 ++ [y]) ys (t1 ++ [y])); [by rewrite Ec, <- app_assoc|by rewrite Ed, <- app_assoc|..];
        rewrite ?app_length; cbn [length] in *; lia.
Qed.
Lemma ok_rotate R cs n c first middle last l1 xs ys l2 : cs !! n = Some c → vals c = l1 ++ xs ++ ys ++ l2 →
  first = at_ c + length l1 → middle = first + length xs → last = middle + length ys →
  ok R cs (rotate first middle last) (λ o cs', o = Ok tt ∧ cs' = <[n := with_vals c (l1 ++ ys ++ xs ++ l2)]> cs).
Proof.
  intros Ec E -> -> ->. unfold rotate.
  destruct (Nat.eqb_spec (at_ c + length l1) (at_ c + length l1 + length xs)) as [H|H]; cbn [orb].
  { destruct xs; [|cbn [length] in H; lia]. apply ok_done. split; [done|]. cbn [app] in *.
    by rewrite <- E, with_vals_id, list_insert_id. }
  destruct (Nat.eqb_spec (at_ c + length l1 + length xs) (at_ c + length l1 + length xs + length ys)) as [H'|H'].
  { destruct ys; [|cbn [length] in H'; lia]. apply ok_done. split; [done|]. cbn [app] in *.
    by rewrite <- E, with_vals_id, list_insert_id. }
  eapply ok_then.
  - eapply (ok_read_n _ _ c _ _ l1 (xs ++ ys) l2); [|by rewrite E, !app_assoc|done|rewrite app_length; lia].
    apply elem_of_app. right. by eapply elem_of_list_lookup_2.
  - replace (at_ c + length l1 + length xs - (at_ c + length l1)) with (length xs) by lia.
    rewrite drop_app, take_app. eapply ok_mono.
    + eapply (ok_write_n _ _ _ _ _ l1 (xs ++ ys) l2); [done|by rewrite E, !app_assoc|done|rewrite !app_length; lia].
    + cbn beta. intros o cs' [-> ->]. by rewrite <- app_assoc.
Qed.

(** ** vector *)
Lemma ok_skip {A} R cs (p : prog A) Q : ok R cs p Q → ok R (C 0 [] :: cs) p Q.
Proof.
  intros O r h SR (h' & -> & D & S) D'. cbn [cmap cells] in *. rewrite (left_id_L ∅ (∪)) in *. by apply O.
Qed.
Lemma ok_done_perm {A} R cs cs' (o : outcome A) (Q : outcome A → list chunk → Prop) :
  cs ≡ₚ cs' → Q o cs' → ok R cs (Done o) Q.
Proof. intros P q. eapply ok_perm; [done|]. by apply ok_done. Qed.
(** nullptr or a block *)
Definition is_buf (e : nat) (buf : chunk) : Prop :=
  e = 0 ∧ buf = C 0 [] ∨ e = 1 ∧ ∃ b vs, buf = B b vs ∧ b ≠ 0 ∧ vs ≠ [].
Definition vec a n xs cs : Prop :=
  ∃ (e : nat) buf rest, is_buf e buf ∧ vals buf = xs ++ rest ∧ n = length (vals buf) ∧
    cs = [C a [e; at_ buf; n; length xs]; buf].
Lemma is_buf_with e buf vs : is_buf e buf → length vs = length (vals buf) → is_buf e (with_vals buf vs).
Proof.
  intros [[-> ->]|[-> (b & ws & -> & N & N')]] L; cbn [with_vals vals length] in *.
  - left. by destruct vs.
  - right. split; [done|]. exists b, vs. by destruct vs, ws.
Qed.
Ltac chunks := cbn [insert list_insert with_vals vals at_ delete list_delete app lookup list_lookup length].
Ltac chunks_in H := cbn [insert list_insert with_vals vals at_ delete list_delete app lookup list_lookup length] in H.
Ltac perm := cbn [app]; first [reflexivity|
  lazymatch goal with |- ?x :: _ ≡ₚ _ =>
    first [apply perm_skip|
      etrans; [|first [apply (Permutation_middle [_] _ x)|apply (Permutation_middle [_; _] _ x)|apply (Permutation_middle [_; _; _] _ x)|
        apply (Permutation_middle [_; _; _; _] _ x)|apply (Permutation_middle [_; _; _; _; _] _ x)]]; cbn [app]; apply perm_skip]; perm
  end].
(** reading cell [i] of the chunk in place [n] *)
Lemma ok_rd_own {A} R cs n c i v l (k : nat → prog A) Q : cs !! n = Some c → vals c !! i = Some v → l = at_ c + i →
  ok R cs (k v) Q → ok R cs (bind (rd l) k) Q.
Proof. intros E. apply ok_rd. apply elem_of_app. right. by eapply elem_of_list_lookup_2. Qed.
Ltac rdo n i := eapply (ok_rd_own _ _ n _ i); [reflexivity|reflexivity|chunks; lia|].
Ltac wro n i := eapply (ok_wr _ _ n _ i); [reflexivity|chunks; lia|chunks; lia|chunks].
Ltac rdc H i := eapply (ok_rd _ _ _ i); [apply H|reflexivity|chunks; lia|].
Ltac unfold_fields := unfold v_size, v_capacity, v_data, v_set_size.

Lemma ok_release R F a e buf n s rest xs : is_buf e buf → vals buf = xs ++ rest → s = length xs →
  ok R (C a [e; at_ buf; n; s] :: buf :: F) (v_release a)
    (λ o cs', o = Ok tt ∧ cs' = C a [e; at_ buf; n; s] :: F).
Proof.
  intros I E ->. unfold v_release. unfold_fields. rdo 0 0.
  destruct I as [[-> ->]|[-> (b & vs & -> & N & N')]]; cbn [Nat.eqb].
  - eapply ok_perm; [apply perm_swap|]. apply ok_skip. by apply ok_done.
  - rdo 0 1. rdo 0 3. eapply ok_then.
    + eapply (ok_write_n _ _ 1 _ _ [] xs rest); [reflexivity|done|chunks; lia|by rewrite replicate_length].
    + chunks. rdo 0 1. unfold free. eapply (ok_free _ _ 1); [reflexivity|]. by apply ok_done.
Qed.
Lemma ok_move_storage R F a e buf n s rest xs t ws k s' : is_buf e buf → vals buf = xs ++ rest → s = length xs →
  ok R (B t ws :: C a [e; at_ buf; n; s] :: buf :: F) (v_move_storage a 1 t k s')
    (λ o cs', o = Ok tt ∧ cs' = C a [1; t; k; s'] :: B t ws :: F).
Proof.
  intros I E L. eapply ok_perm; [apply (Permutation_middle [_; _])|]. cbn [app].
  unfold v_move_storage. eapply ok_then; [by eapply ok_release|].
  wro 0 0. wro 0 1. wro 0 2. unfold wr. eapply (ok_write _ _ 0 _ 3); [reflexivity|chunks; lia|chunks; lia|].
  chunks. by apply ok_done.
Qed.
Lemma ok_v_range R cs a e p n s : C a [e; p; n; s] ∈ R ++ cs →
  ok R cs (v_range a) (λ o cs', o = Ok (p, p + s) ∧ cs' = cs).
Proof. intros H. unfold v_range. unfold_fields. rdc H 1. rdc H 1. rdc H 3. by apply ok_done. Qed.
(** the result of a function that may run out of memory *)
Definition replaced {X} F (P : list chunk → Prop) (x : X) (old : list chunk) (o : outcome X) cs : Prop :=
  (∃ ca, cs = ca ++ F ∧ P ca ∧ o = Ok x) ∨ (cs = old ++ F ∧ o = Exn BadAlloc).
Lemma ok_v_assign R F a n xs ca p k d s1 ys s2 : vec a n xs ca → d ∈ R ++ F → vals d = s1 ++ ys ++ s2 →
  p = at_ d + length s1 → k = length ys →
  ok R (ca ++ F) (v_assign a p k) (λ o cs',
    (∃ ca' n', cs' = ca' ++ F ∧ length ys ≤ n' ∧ vec a n' ys ca' ∧ o = Ok tt) ∨ (cs' = ca ++ F ∧ o = Exn BadAlloc)).
Proof.
  intros (e & buf & rest & I & E & -> & ->) Id Ed -> ->. cbn [app]. unfold v_assign. unfold_fields.
  rdo 0 3. rdo 0 2. destruct (Nat.leb_spec (length xs + length ys) (length (vals buf))) as [L|L].
  - rdo 0 1. rdo 0 3.
    assert (∃ mid rest', rest = mid ++ rest' ∧ length mid = length ys) as (mid & rest' & -> & Lm).
    { exists (take (length ys) rest), (drop (length ys) rest). rewrite take_drop. split; [done|].
      rewrite take_length. rewrite E, app_length in L. lia. }
    eapply ok_then.
    { eapply (ok_copy_n _ _ 1 buf d _ _ _ s1 ys s2 xs mid rest'); [reflexivity| |done..].
      cbn [delete list_delete]. rewrite elem_of_app, elem_of_cons. apply elem_of_app in Id. tauto. }
    chunks. rdo 0 1. rdo 0 3. eapply ok_then.
    { eapply (ok_rotate _ _ 1 _ _ _ _ [] xs ys rest'); [reflexivity|by rewrite with_vals_vals|rewrite with_vals_at; chunks; lia|lia|lia]. }
    chunks. rewrite with_vals_twice. rdo 0 1. rdo 0 3. eapply ok_then.
    { eapply (ok_write_n _ _ 1 _ _ ys xs rest'); [reflexivity|by rewrite with_vals_vals|by rewrite with_vals_at|by rewrite replicate_length]. }
    chunks. rewrite with_vals_twice.
    unfold wr. eapply (ok_write _ _ 0 _ 3); [reflexivity|chunks; lia|chunks; lia|]. chunks.
    assert (length (ys ++ replicate (length xs) 0 ++ rest') = length (vals buf)) as Ln.
    { rewrite E, !app_length, replicate_length. lia. }
    apply ok_done. left. exists [C a [e; at_ buf; length (vals buf); length ys]; with_vals buf (ys ++ replicate (length xs) 0 ++ rest')],
      (length (vals buf)). split_and!; [done| | |done].
    { rewrite E, !app_length in *. lia. }
    exists e, (with_vals buf (ys ++ replicate (length xs) 0 ++ rest')), (replicate (length xs) 0 ++ rest').
    split; [by apply is_buf_with|]. split; [apply with_vals_vals|]. rewrite with_vals_vals, with_vals_at. by rewrite Ln.
  - unfold v_storage. apply bind_assoc. apply ok_al.
    { right. done. }
    intros t ws Nt Lt. cbn [bind ret fst snd].
    assert (∃ mid rest', ws = mid ++ rest' ∧ length mid = length ys) as (mid & rest' & -> & Lm).
    { exists (take (length ys) ws), (drop (length ys) ws). rewrite take_drop. split; [done|]. rewrite take_length. lia. }
    eapply ok_then.
    { eapply (ok_copy_n _ _ 0 _ d _ _ _ s1 ys s2 [] mid rest'); [reflexivity| |done..| |].
      - cbn [delete list_delete]. rewrite elem_of_app, !elem_of_cons. apply elem_of_app in Id. tauto.
      - chunks. lia.
      - done. }
    chunks. eapply ok_mono; [by eapply ok_move_storage|]. cbn beta. intros o cs' [-> ->]. left.
    exists [C a [1; t; max 10 (length ys); length ys]; B t (ys ++ rest')], (max 10 (length ys)).
    split_and!; [done|lia| |done].
    exists 1, (B t (ys ++ rest')), rest'. split.
    + right. split; [done|]. do 2 eexists. split; [done|]. split; [done|]. destruct ys; [|done]. destruct rest'; [|done].
      destruct mid; [|done]. cbn [app length] in Lt. lia.
    + cbn [vals at_]. split; [done|]. split; [|done]. rewrite <- Lt, !app_length. lia.
Qed.
Lemma ok_unskip {A} R cs (p : prog A) Q : ok R (C 0 [] :: cs) p Q → ok R cs p Q.
Proof.
  intros O r h SR S D'. apply O; [done| |done]. exists h. cbn [cmap cells]. rewrite (left_id_L ∅ (∪)).
  split_and!; [done|apply map_disjoint_empty_l|done].
Qed.
Lemma vec_new a t xs rest n : t ≠ 0 → n = length (xs ++ rest) → n ≠ 0 →
  vec a n xs [C a [1; t; n; length xs]; B t (xs ++ rest)].
Proof.
  intros N -> L. exists 1, (B t (xs ++ rest)), rest. split; [|done]. right. split; [done|].
  do 2 eexists. split; [done|]. split; [done|]. by destruct (xs ++ rest).
Qed.
Lemma vec_same a e buf vs xs rest n : is_buf e buf → vs = xs ++ rest → length vs = n → n = length (vals buf) →
  vec a n xs [C a [e; at_ buf; n; length xs]; with_vals buf vs].
Proof.
  intros I -> L L'. exists e, (with_vals buf (xs ++ rest)), rest.
  rewrite with_vals_vals, with_vals_at. split; [apply is_buf_with; [done|congruence]|]. by rewrite L.
Qed.
Lemma inside_frame cs' cs R F : cs' ⊆ R ++ F → cs' ⊆ R ++ cs ++ F.
Proof. intros S x I. specialize (S x I). rewrite !elem_of_app in *. tauto. Qed.

Section readers.
Context (R cs : list chunk).
Implicit Types ca cb : list chunk.
Lemma ok_v_size a n xs ca : vec a n xs ca → ca ⊆ R ++ cs → ok R cs (v_size a) (λ o cs', o = Ok (length xs) ∧ cs' = cs).
Proof.
  intros (e & buf & rest & I & E & -> & ->) S.
  eapply (ok_read _ _ _ 3); [apply S; left|reflexivity|chunks; lia|]. by apply ok_done.
Qed.
Lemma ok_v_capacity a n xs ca : vec a n xs ca → ca ⊆ R ++ cs → ok R cs (v_capacity a) (λ o cs', o = Ok n ∧ cs' = cs).
Proof.
  intros (e & buf & rest & I & E & -> & ->) S.
  eapply (ok_read _ _ _ 2); [apply S; left|reflexivity|chunks; lia|]. by apply ok_done.
Qed.
Lemma ok_v_index a n xs ca i x : vec a n xs ca → ca ⊆ R ++ cs → xs !! i = Some x →
  ok R cs (v_index a i) (λ o cs', o = Ok x ∧ cs' = cs).
Proof.
  intros (e & buf & rest & I & E & -> & ->) S Ex. unfold v_index. unfold_fields.
  eapply (ok_rd _ _ _ 1); [apply S; left|reflexivity|chunks; lia|].
  eapply (ok_read _ _ buf i); [apply S; right; left| |done|by apply ok_done].
  rewrite E. by apply lookup_app_l_Some.
Qed.
Lemma ok_v_at a n xs ca i : vec a n xs ca → ca ⊆ R ++ cs →
  ok R cs (v_at a i) (λ o cs', cs' = cs ∧ o = match xs !! i with Some x => Ok x | None => Exn OutOfRange end).
Proof.
  intros V S. unfold v_at. eapply ok_then; [by eapply ok_v_size|].
  destruct (Nat.leb_spec (length xs) i) as [L|L].
  - apply ok_done. by rewrite lookup_ge_None_2.
  - destruct (lookup_lt_is_Some_2 xs i L) as [x Ex]. rewrite Ex.
    eapply ok_mono; [by eapply ok_v_index|]. by intros ? ? [-> ->].
Qed.
Lemma ok_v_eq a n xs ca b k ys cb : vec a n xs ca → ca ⊆ R ++ cs → vec b k ys cb → cb ⊆ R ++ cs →
  ok R cs (v_eq a b) (λ o cs', o = Ok (bool_decide (xs = ys)) ∧ cs' = cs).
Proof.
  intros (e & buf & rest & I & E & -> & ->) S (e' & buf' & rest' & I' & E' & -> & ->) S'. unfold v_eq.
  eapply ok_then; [eapply ok_v_range; apply S; left|].
  eapply ok_then; [eapply ok_v_range; apply S'; left|]. cbn [fst snd].
  replace (at_ buf + length xs - at_ buf) with (length xs) by lia.
  replace (at_ buf' + length ys - at_ buf') with (length ys) by lia.
  destruct (Nat.eqb_spec (length xs) (length ys)) as [L|L].
  - eapply (ok_equal_n _ _ buf buf' _ _ _ [] xs rest [] ys rest');
      [apply S; right; left|apply S'; right; left|done|done|chunks; lia|chunks; lia|done|done].
  - apply ok_done. by rewrite bool_decide_eq_false_2 by congruence.
Qed.
Lemma ok_v_lt a n xs ca b k ys cb : vec a n xs ca → ca ⊆ R ++ cs → vec b k ys cb → cb ⊆ R ++ cs →
  ok R cs (v_lt a b) (λ o cs', o = Ok (lexico xs ys) ∧ cs' = cs).
Proof.
  intros (e & buf & rest & I & E & -> & ->) S (e' & buf' & rest' & I' & E' & -> & ->) S'. unfold v_lt.
  eapply ok_then; [eapply ok_v_range; apply S; left|].
  eapply ok_then; [eapply ok_v_range; apply S'; left|]. cbn [fst snd].
  replace (at_ buf + length xs - at_ buf) with (length xs) by lia.
  replace (at_ buf' + length ys - at_ buf') with (length ys) by lia.
  eapply (ok_less_n _ _ buf buf' _ _ _ _ [] xs rest [] ys rest');
    [apply S; right; left|apply S'; right; left|done|done|chunks; lia|chunks; lia|done|done].
Qed.
End readers.

Section writers.
Context (R F : list chunk).
Implicit Types ca cb : list chunk.
Lemma ok_v_copy a vs b k ys cb : length vs = 4 → vec b k ys cb → cb ⊆ R ++ F →
  ok R (C a vs :: F) (v_copy a b) (λ o cs',
    (∃ ca' n', cs' = ca' ++ F ∧ length ys ≤ n' ∧ vec a n' ys ca' ∧ o = Ok tt) ∨
    (∃ vs', cs' = C a vs' :: F ∧ length vs' = 4 ∧ o = Exn BadAlloc)).
Proof.
  intros L (e' & buf' & rest' & I' & E' & -> & ->) S'. unfold v_copy. unfold_fields.
  assert (∀ c, c ∈ [C b [e'; at_ buf'; length (vals buf'); length ys]; buf'] → c ∈ R ++ C a vs :: F) as S.
  { intros c Ic. apply S' in Ic. rewrite elem_of_app, elem_of_cons in *. tauto. }
  eapply (ok_rd _ _ _ 1); [apply S; left|reflexivity|chunks; lia|].
  eapply (ok_rd _ _ _ 1); [apply S; left|reflexivity|chunks; lia|].
  eapply (ok_rd _ _ _ 3); [apply S; left|reflexivity|chunks; lia|].
  eapply ok_then; [eapply (ok_write_n _ _ 0 _ _ [] vs []); [reflexivity|by rewrite app_nil_r|chunks; lia|done]|].
  chunks. apply ok_unskip. eapply ok_perm; [apply perm_swap|].
  assert (vec a 0 [] [C a [0; 0; 0; 0]; C 0 []]) as V by (exists 0, (C 0 []), []; split; [by left|done]).
  eapply ok_catch.
  - eapply (ok_v_assign _ _ _ _ _ _ _ _ buf' [] ys rest' V); [apply S'; right; left|done|chunks; lia|chunks; lia].
  - cbn beta. intros o cs' [(ca' & n' & -> & Ln & V' & ->)|[-> ->]].
    + apply ok_done. left. eauto 10.
    + eapply ok_then; [by eapply (ok_release _ _ _ _ (C 0 []) _ _ [] []); [left|..]|]. apply ok_done. right.
      by exists [0; 0; 0; 0].
Qed.
Lemma ok_v_copy_assign a n xs ca b k ys cb : vec a n xs ca → vec b k ys cb → cb ⊆ R ++ F → a ≠ b →
  ok R (ca ++ F) (v_copy_assign a b) (λ o cs',
    (∃ ca' n', cs' = ca' ++ F ∧ length ys ≤ n' ∧ vec a n' ys ca' ∧ o = Ok tt) ∨ (cs' = ca ++ F ∧ o = Exn BadAlloc)).
Proof.
  intros V (e' & buf' & rest' & I' & E' & -> & ->) S' N. unfold v_copy_assign.
  rewrite (proj2 (Nat.eqb_neq a b)) by done.
  eapply ok_then; [eapply ok_v_range; apply (inside_frame _ ca) in S'; apply S'; left|]. cbn [fst snd].
  eapply (ok_v_assign _ _ _ _ _ _ _ _ buf' [] ys rest' V); [apply S'; right; left|done|chunks; lia|chunks; lia].
Qed.
Lemma ok_v_move_assign a n xs ca b k ys cb : vec a n xs ca → vec b k ys cb → a ≠ b →
  ok R (ca ++ cb ++ F) (v_move_assign a b) (λ o cs',
    ∃ ca' cb', cs' = ca' ++ cb' ++ F ∧ vec a k ys ca' ∧ vec b 0 [] cb' ∧ o = Ok tt).
Proof.
  intros (e & buf & rest & I & E & -> & ->) (e' & buf' & rest' & I' & E' & -> & ->) N. unfold v_move_assign.
  rewrite (proj2 (Nat.eqb_neq a b)) by done. cbn [app].
  eapply ok_then; [by eapply ok_release|].
  rdo 1 0. wro 1 0. wro 0 0. rdo 1 1. wro 1 1. wro 0 1. rdo 1 2. wro 1 2. wro 0 2. rdo 1 3. wro 1 3.
  unfold wr. eapply (ok_write _ _ 0 _ 3); [reflexivity|chunks; lia|chunks; lia|]. chunks.
  apply ok_unskip. eapply (ok_done_perm _ _ ([C a [e'; at_ buf'; length (vals buf'); length ys]; buf'] ++ [C b [0; 0; 0; 0]; C 0 []] ++ F)).
  - perm.
  - do 2 eexists. split; [reflexivity|]. split_and!; [by exists e', buf', rest'| |done].
    exists 0, (C 0 []), []. split; [by left|done].
Qed.
End writers.
Ltac wrl n i := unfold wr; eapply (ok_write _ _ n _ i); [reflexivity|chunks; lia|chunks; lia|chunks].
Lemma ok_swap_cells R cs n c k d x y i j v w : n ≠ k → cs !! n = Some c → cs !! k = Some d → vals c !! i = Some v → vals d !! j = Some w →
  x = at_ c + i → y = at_ d + j →
  ok R cs (swap_cells x y) (λ o cs', o = Ok tt ∧
    cs' = <[k := with_vals d (<[j:=v]> (vals d))]> (<[n := with_vals c (<[i:=w]> (vals c))]> cs)).
Proof.
  intros N Ec Ed Ev Ew -> ->. unfold swap_cells.
  eapply (ok_rd_own _ _ n c i); [done..|]. eapply (ok_rd_own _ _ k d j); [done..|].
  eapply (ok_wr _ _ n c i); [done|by eapply lookup_lt_Some|done|].
  unfold wr. eapply (ok_write _ _ k d j); [by rewrite list_lookup_insert_ne|by eapply lookup_lt_Some|done|].
  by apply ok_done.
Qed.
Section writers.
Context (R F : list chunk).
Implicit Types ca cb : list chunk.
Lemma ok_v_swap a n xs ca b k ys cb : vec a n xs ca → vec b k ys cb →
  ok R (ca ++ cb ++ F) (v_swap a b) (λ o cs',
    ∃ ca' cb', cs' = ca' ++ cb' ++ F ∧ vec a k ys ca' ∧ vec b n xs cb' ∧ o = Ok tt).
Proof.
  intros (e & buf & rest & I & E & -> & ->) (e' & buf' & rest' & I' & E' & -> & ->). cbn [app]. unfold v_swap.
  eapply ok_then; [eapply (ok_swap_cells _ _ 0 _ 2 _ _ _ 1 1); [done|reflexivity..|chunks; lia|chunks; lia]|]. chunks.
  eapply ok_then; [eapply (ok_swap_cells _ _ 0 _ 2 _ _ _ 2 2); [done|reflexivity..|chunks; lia|chunks; lia]|]. chunks.
  eapply ok_then; [eapply (ok_swap_cells _ _ 0 _ 2 _ _ _ 3 3); [done|reflexivity..|chunks; lia|chunks; lia]|]. chunks.
  eapply ok_mono.
  - eapply ok_perm; [|eapply (ok_swap_cells _ ([C a [e; at_ buf'; length (vals buf'); length ys]; buf';
      C b [e'; at_ buf; length (vals buf); length xs]; buf] ++ F) 0 _ 2 _ _ _ 0 0); [done|reflexivity..|chunks; lia|chunks; lia]].
    perm.
  - cbn beta. intros o cs' [-> ->]. chunks.
    exists [C a [e'; at_ buf'; length (vals buf'); length ys]; buf'], [C b [e; at_ buf; length (vals buf); length xs]; buf].
    split_and!; [done|by exists e', buf', rest'|by exists e, buf, rest|done].
Qed.
Lemma ok_v_swap_self a n xs ca : vec a n xs ca →
  ok R (ca ++ F) (v_swap a a) (λ o cs', cs' = ca ++ F ∧ o = Ok tt).
Proof.
  intros (e & buf & rest & I & E & -> & ->). cbn [app]. unfold v_swap.
  assert (∀ i v, i < 4 → [e; at_ buf; length (vals buf); length xs] !! i = Some v →
    ok R (C a [e; at_ buf; length (vals buf); length xs] :: buf :: F) (swap_cells (a + i) (a + i))
      (λ o cs', o = Ok tt ∧ cs' = C a [e; at_ buf; length (vals buf); length xs] :: buf :: F)) as G.
  { intros i v Li Ev. unfold swap_cells.
    do 2 (eapply (ok_rd_own _ _ 0 _ i); [reflexivity|exact Ev|reflexivity|]).
    eapply (ok_wr _ _ 0 _ i); [done|done|done|]. chunks.
    unfold wr. eapply (ok_write _ _ 0 _ i); [done|by cbn [vals]; rewrite insert_length|done|].
    apply ok_done. split; [done|]. cbn [vals with_vals at_].
    by rewrite !(list_insert_id [e; at_ buf; length (vals buf); length xs] i v Ev). }
  eapply ok_then; [eapply (G 1); [lia|reflexivity]|]. eapply ok_then; [eapply (G 2); [lia|reflexivity]|].
  eapply ok_then; [eapply (G 3); [lia|reflexivity]|].
  eapply ok_mono; [rewrite <- (Nat.add_0_r a) at 2 3; eapply (G 0); [lia|reflexivity]|]. by intros ? ? [-> ->].
Qed.
Lemma ok_v_emplace a e buf rest xs ys x : is_buf e buf → vals buf = (xs ++ ys) ++ rest →
  let ca := [C a [e; at_ buf; length (vals buf); length (xs ++ ys)]; buf] in
  ok R (ca ++ F) (v_emplace a (at_ buf + length xs) x) (λ o cs',
    (∃ ca' n' q, cs' = ca' ++ F ∧ length (xs ++ ys) < n' ∧ vec a n' (xs ++ x :: ys) ca' ∧ o = Ok q ∧ (length (xs ++ ys) < length (vals buf) → n' = length (vals buf)) ∧
      ∃ buf', buf' ∈ ca' ∧ vals buf' !! length xs = Some x ∧ q = at_ buf' + length xs) ∨
    (cs' = ca ++ F ∧ o = Exn BadAlloc ∧ length (vals buf) ≤ length (xs ++ ys))).
Proof.
  intros I E ca. subst ca. cbn [app]. unfold v_emplace. unfold_fields. rdo 0 1.
  replace (at_ buf + length xs - at_ buf) with (length xs) by lia. cbv zeta.
  rdo 0 3. rdo 0 2. destruct (Nat.leb_spec (length (xs ++ ys) + 1) (length (vals buf))) as [L|L].
  - destruct rest as [|y rest]; [rewrite E, app_nil_r in L; lia|]. apply bind_assoc.
    rdo 0 1. apply bind_assoc. rdo 0 3. apply bind_assoc.
    eapply (ok_wr _ _ 1 buf (length (xs ++ ys))); [reflexivity|lia|done|]. chunks. rewrite E, insert_here.
    apply bind_assoc. rdo 0 1. apply bind_assoc. rdo 0 3. apply bind_assoc. eapply ok_then.
    { eapply (ok_rotate _ _ 1 _ _ _ _ xs ys [x] rest);
        [reflexivity|by rewrite with_vals_vals, <- app_assoc|by rewrite with_vals_at|rewrite app_length; chunks; lia|chunks; lia]. }
    chunks. rewrite with_vals_twice. apply bind_assoc. rdo 0 3. wro 0 3. rdo 0 1. apply ok_done. left.
    exists [C a [e; at_ buf; length (vals buf); length (xs ++ x :: ys)]; with_vals buf ((xs ++ x :: ys) ++ rest)], (length (vals buf)).
    eexists. split_and!.
    + replace (length (xs ++ x :: ys)) with (length (xs ++ ys) + 1) by (rewrite !app_length; cbn [length]; lia).
      by rewrite <- E, <- app_assoc.
    + lia.
    + eapply (vec_same _ _ _ _ _ rest); [done|done|rewrite E, !app_length; cbn [length]; lia|done].
    + done.
    + by rewrite E.
    + eexists. split; [right; left|]. rewrite with_vals_vals, with_vals_at, <- app_assoc. cbn [app]. split; [by rewrite lookup_here|done].
  - apply bind_assoc. rdo 0 3. unfold v_storage. apply bind_assoc, bind_assoc. apply ok_al.
    { right. split_and!; [done..|lia]. }
    intros t ws Nt Lt. cbn [bind ret fst snd].
    assert (∃ mid y mid2 rest', ws = mid ++ y :: mid2 ++ rest' ∧ length mid = length xs ∧ length mid2 = length ys) as (mid & y & mid2 & rest' & -> & Lm & Lm2).
    { rewrite app_length in Lt. destruct (lookup_lt_is_Some_2 ws (length xs)) as [y Ey]; [lia|].
      apply elem_of_list_split_length in Ey as (l1 & l2 & -> & Ll). rewrite app_length in Lt. cbn [length] in Lt.
      exists l1, y, (take (length ys) l2), (drop (length ys) l2). rewrite take_drop, take_length. split_and!; [done|done|lia]. }
    apply bind_assoc. eapply (ok_wr _ _ 0 _ (length xs)); [reflexivity|cbn [vals]; rewrite app_length; cbn [length]; lia|done|].
    cbn [with_vals vals]. rewrite <- Lm, insert_here. chunks. rewrite Lm.
    apply bind_assoc. rdo 1 1. apply bind_assoc. eapply ok_then.
    { eapply (ok_copy_n _ _ 0 _ buf _ _ _ [] xs (ys ++ rest) [] mid (x :: mid2 ++ rest'));
        [reflexivity| |by rewrite E, <- app_assoc|chunks; lia|done|done|chunks; lia|done].
      apply elem_of_app. right. right. left. }
    chunks. apply bind_assoc. rdo 1 1. apply bind_assoc. rdo 1 3. apply bind_assoc. eapply ok_then.
    { eapply (ok_copy_n _ _ 0 _ buf _ _ _ xs ys rest (xs ++ [x]) mid2 rest');
        [reflexivity| |by rewrite E, <- app_assoc|chunks; lia|rewrite app_length; lia|by cbn [vals]; rewrite <- app_assoc|chunks; rewrite app_length; cbn [length]; lia|done].
      apply elem_of_app. right. right. left. }
    chunks. apply bind_assoc. rdo 1 3. eapply ok_then; [by eapply ok_move_storage|]. rdo 0 1. apply ok_done. left.
    exists [C a [1; t; max 10 (length (xs ++ ys) + max (length (xs ++ ys)) 1); length (xs ++ x :: ys)]; B t ((xs ++ x :: ys) ++ rest')],
      (max 10 (length (xs ++ ys) + max (length (xs ++ ys)) 1)).
    eexists. split_and!.
    + replace (length (xs ++ x :: ys)) with (length (xs ++ ys) + 1) by (rewrite !app_length; cbn [length]; lia).
      by rewrite <- !app_assoc.
    + lia.
    + apply vec_new; [done| |lia]. rewrite <- Lt, !app_length. cbn [length]. rewrite !app_length. lia.
    + done.
    + lia.
    + eexists. split; [right; left|]. cbn [vals at_]. rewrite <- app_assoc. cbn [app]. split; [by rewrite lookup_here|done].
Qed.
Lemma ok_v_push_back a n xs ca x : vec a n xs ca →
  ok R (ca ++ F) (v_push_back a x) (λ o cs',
    (∃ ca' n', cs' = ca' ++ F ∧ length xs < n' ∧ vec a n' (xs ++ [x]) ca' ∧ o = Ok tt ∧ (length xs < n → n' = n)) ∨
    (cs' = ca ++ F ∧ o = Exn BadAlloc ∧ n ≤ length xs)).
Proof.
  intros (e & buf & rest & I & E & -> & ->). unfold v_push_back.
  eapply ok_then; [eapply ok_v_range; apply elem_of_app; right; left|]. cbn [fst snd].
  pose proof (ok_v_emplace a e buf rest xs [] x I) as O. rewrite !app_nil_r in O. specialize (O E). cbv zeta in O.
  eapply ok_bind; [apply O|..]; cbn beta.
  - intros q cs' [(ca' & n' & q' & -> & L & V & _ & Hn & _)|(_ & ? & _)]; [|done]. apply ok_done. left. by exists ca', n'.
  - intros e' cs' [(ca' & n' & q' & _ & _ & _ & ? & _)|(-> & ? & L)]; [done|]. right. split_and!; [done|congruence|done].
Qed.
Lemma ok_v_insert a n xs ys ca x : vec a n (xs ++ ys) ca →
  ok R (ca ++ F) (v_insert a (length xs) x) (λ o cs',
    (∃ ca' n', cs' = ca' ++ F ∧ length (xs ++ ys) < n' ∧ vec a n' (xs ++ x :: ys) ca' ∧ o = Ok x ∧ (length (xs ++ ys) < n → n' = n)) ∨
    (cs' = ca ++ F ∧ o = Exn BadAlloc ∧ n ≤ length (xs ++ ys))).
Proof.
  intros (e & buf & rest & I & E & -> & ->). unfold v_insert. unfold v_data at 1. cbn [app]. rdo 0 1.
  pose proof (ok_v_emplace a e buf rest xs ys x I E) as O. cbv zeta in O. cbn [app] in O.
  eapply ok_bind; [apply O|..]; cbn beta.
  - intros q cs' [(ca' & n' & q' & -> & L & V & [= ->] & Hn & buf' & Ib & Ex & ->)|(_ & ? & _)]; [|done].
    unfold rd. eapply (ok_read _ _ buf' (length xs)); [rewrite !elem_of_app; auto|done|done|]. apply ok_done. left. by exists ca', n'.
  - intros e' cs' [(ca' & n' & q' & _ & _ & _ & ? & _)|(-> & ? & L)]; [done|]. right. split_and!; [done|congruence|done].
Qed.
Lemma ok_v_pop_back a n xs x ca : vec a n (xs ++ [x]) ca →
  ok R (ca ++ F) (v_pop_back a) (λ o cs', ∃ ca', cs' = ca' ++ F ∧ vec a n xs ca' ∧ o = Ok tt).
Proof.
  intros (e & buf & rest & I & E & -> & ->). cbn [app]. unfold v_pop_back. unfold_fields.
  rewrite app_length. cbn [length]. rdo 0 3. wro 0 3. rdo 0 1. rdo 0 3. unfold destroy_n.
  replace (length xs + 1 - 1) with (length xs) by lia.
  rewrite <- app_assoc in E. cbn [app] in E. eapply ok_mono.
  - eapply (ok_write_n _ _ 1 buf _ xs [x] rest); [reflexivity|done|done|done].
  - cbn beta. intros o cs' [-> ->]. chunks.
    exists [C a [e; at_ buf; length (vals buf); length xs]; with_vals buf (xs ++ 0 :: rest)]. split_and!; [done| |done].
    eapply vec_same; [done|done| |done]. by rewrite E, !app_length.
Qed.
Lemma ok_v_reserve a n xs ca k : vec a n xs ca →
  ok R (ca ++ F) (v_reserve a k) (λ o cs',
    (∃ ca' n', cs' = ca' ++ F ∧ k ≤ n' ∧ vec a n' xs ca' ∧ o = Ok tt ∧ (k ≤ n → n' = n)) ∨
    (cs' = ca ++ F ∧ o = Exn BadAlloc ∧ n < k)).
Proof.
  intros (e & buf & rest & I & E & -> & ->). cbn [app]. unfold v_reserve. unfold_fields. rdo 0 2.
  destruct (Nat.leb_spec k (length (vals buf))) as [L|L].
  - apply ok_done. left. exists [C a [e; at_ buf; length (vals buf); length xs]; buf], (length (vals buf)).
    split_and!; [done|done|by exists e, buf, rest|done|done].
  - unfold v_storage. apply bind_assoc. apply ok_al.
    { right. done. }
    intros t ws Nt Lt. cbn [bind ret fst snd].
    assert (length xs ≤ length (vals buf)) as Lx by (rewrite E, app_length; lia).
    assert (∃ mid rest', ws = mid ++ rest' ∧ length mid = length xs) as (mid & rest' & -> & Lm).
    { exists (take (length xs) ws), (drop (length xs) ws). rewrite take_drop. split; [done|]. rewrite take_length. lia. }
    rdo 1 3. eapply (ok_then _ _ (B t (xs ++ rest') :: C a [e; at_ buf; length (vals buf); length xs] :: buf :: F) _ tt).
    { destruct (Nat.eqb_spec (length xs) 0) as [Z|Z].
      - destruct xs; [|done]. destruct mid; [|done]. by apply ok_done.
      - rdo 1 1. rdo 1 3. eapply ok_mono.
        + eapply (ok_copy_n _ _ 0 _ buf _ _ _ [] xs rest [] mid rest'); [reflexivity| |done|chunks; lia|done|done|chunks; lia|done].
          apply elem_of_app. right. right. left.
        + by intros ? ? [-> ->]. }
    rdo 1 3. eapply ok_mono; [by eapply ok_move_storage|]. cbn beta. intros o cs' [-> ->]. left.
    exists [C a [1; t; max 10 k; length xs]; B t (xs ++ rest')], (max 10 k).
    split_and!; [done|lia| |done|lia].
    apply vec_new; [done| |lia]. rewrite <- Lt, !app_length. lia.
Qed.
Lemma ok_v_clear a n xs ca : vec a n xs ca →
  ok R (ca ++ F) (v_clear a) (λ o cs', ∃ ca', cs' = ca' ++ F ∧ vec a n [] ca' ∧ o = Ok tt).
Proof.
  intros (e & buf & rest & I & E & -> & ->). cbn [app]. unfold v_clear, destroy_n. unfold_fields. rdo 0 1. rdo 0 3.
  eapply ok_then; [eapply (ok_write_n _ _ 1 buf _ [] xs rest); [reflexivity|done|chunks; lia|by rewrite replicate_length]|].
  chunks. wrl 0 3. apply ok_done.
  exists [C a [e; at_ buf; length (vals buf); 0]; with_vals buf (replicate (length xs) 0 ++ rest)]. split_and!; [done| |done].
  eapply (vec_same _ _ _ _ []); [done|done| |done]. by rewrite E, !app_length, replicate_length.
Qed.
Lemma ok_v_erase a n xs ys zs ca : vec a n (xs ++ ys ++ zs) ca →
  ok R (ca ++ F) (v_erase a (length xs) (length ys)) (λ o cs', ∃ ca', cs' = ca' ++ F ∧ vec a n (xs ++ zs) ca' ∧ o = Ok tt).
Proof.
  intros (e & buf & rest & I & E & -> & ->). cbn [app]. unfold v_erase, destroy_n. unfold_fields.
  rdo 0 1. rdo 0 1. rdo 0 3. rewrite <- !app_assoc in E. rewrite !app_length.
  eapply ok_then; [eapply (ok_copy_down _ _ 1 buf _ _ _ xs ys zs rest); [reflexivity|done|lia|lia|lia]|].
  chunks. rdo 0 1. rdo 0 3. eapply ok_then.
  { eapply (ok_write_n _ _ 1 _ _ (xs ++ zs) (drop (length zs) (ys ++ zs)) rest);
      [reflexivity|by rewrite with_vals_vals, <- !app_assoc|rewrite with_vals_at, app_length; lia|].
    rewrite drop_length, replicate_length, app_length. lia. }
  chunks. rewrite with_vals_twice. rdo 0 3. wrl 0 3. apply ok_done.
  exists [C a [e; at_ buf; length (vals buf); length (xs ++ zs)]; with_vals buf ((xs ++ zs) ++ replicate (length ys) 0 ++ rest)].
  split_and!; [| |done].
  - rewrite app_length. cbn [app]. repeat f_equal. lia.
  - eapply vec_same; [done|done| |done]. rewrite E, !app_length, replicate_length. lia.
Qed.
Lemma ok_v_resize a n xs ca k x : vec a n xs ca →
  ok R (ca ++ F) (v_resize a k x) (λ o cs',
    (∃ ca' n', cs' = ca' ++ F ∧ vec a n' (if decide (k ≤ length xs) then take k xs else xs ++ replicate (k - length xs) x) ca' ∧ o = Ok tt ∧
      (k ≤ length xs → n' = n) ∧ (length xs < k → k ≤ n')) ∨
    (cs' = ca ++ F ∧ o = Exn BadAlloc ∧ length xs < k)).
Proof.
  intros V. pose proof V as (e & buf & rest & I & E & -> & ->). unfold v_resize. unfold_fields. cbn [app]. rdo 0 3.
  destruct (Nat.eqb_spec k (length xs)) as [->|Nk].
  { apply ok_done. left. eexists [_; _], _. split_and!; [done| |done|done|lia]. rewrite decide_True by done. by rewrite take_ge. }
  rdo 0 3. destruct (Nat.ltb_spec k (length xs)) as [L|L].
  - rdo 0 1. eapply ok_then; [eapply ok_v_range; apply elem_of_app; right; left|]. cbn [snd].
    rewrite <- (take_drop k xs) in V. rewrite <- (app_nil_r (drop k xs)) in V.
    pose proof (ok_v_erase a _ _ _ _ _ V) as O. rewrite take_length, drop_length, app_nil_r in O.
    replace (min k (length xs)) with k in O by lia.
    replace (at_ buf + length xs - (at_ buf + k)) with (length xs - k) by lia.
    rewrite !app_nil_r in O. rewrite take_drop in O. cbn [app] in O. eapply ok_mono; [apply O|]. cbn beta. intros o cs' (ca' & -> & V' & ->). left.
    exists ca', (length (vals buf)). split_and!; [done| |done|done|lia]. by rewrite decide_True by lia.
  - unfold v_storage. apply bind_assoc. apply ok_al.
    { right. split_and!; [done..|lia]. }
    intros t ws Nt Lt. cbn [bind ret fst snd].
    assert (∃ mid mid2 rest', ws = mid ++ mid2 ++ rest' ∧ length mid = length xs ∧ length mid2 = k - length xs) as (mid & mid2 & rest' & -> & Lm & Lm2).
    { exists (take (length xs) ws), (take (k - length xs) (drop (length xs) ws)), (drop (k - length xs) (drop (length xs) ws)).
      rewrite !take_drop, !take_length, drop_length. split_and!; [done|lia|lia]. }
    rdo 1 3. rdo 1 3. eapply ok_then.
    { eapply (ok_write_n _ _ 0 _ _ mid mid2 rest'); [reflexivity|done|chunks; lia|by rewrite replicate_length]. }
    chunks. rdo 1 1. rdo 1 3. eapply ok_then.
    { eapply (ok_copy_n _ _ 0 _ buf _ _ _ [] xs rest [] mid (replicate (k - length xs) x ++ rest'));
        [reflexivity| |done|chunks; lia|done|done|chunks; lia|done].
      apply elem_of_app. right. right. left. }
    chunks. eapply ok_mono; [by eapply ok_move_storage|]. cbn beta. intros o cs' [-> ->]. left.
    exists [C a [1; t; max 10 k; length (xs ++ replicate (k - length xs) x)]; B t ((xs ++ replicate (k - length xs) x) ++ rest')], (max 10 k).
    split_and!.
    + replace (length (xs ++ replicate (k - length xs) x)) with k by (rewrite app_length, replicate_length; lia).
      by rewrite <- !app_assoc.
    + rewrite decide_False by lia. apply vec_new; [done| |lia]. rewrite <- Lt, !app_length, replicate_length. lia.
    + done.
    + lia.
    + lia.
Qed.
Lemma ok_v_set a n xs y zs ca x : vec a n (xs ++ y :: zs) ca →
  ok R (ca ++ F) (v_set a (length xs) x) (λ o cs', ∃ ca', cs' = ca' ++ F ∧ vec a n (xs ++ x :: zs) ca' ∧ o = Ok tt).
Proof.
  intros (e & buf & rest & I & E & -> & ->). cbn [app]. unfold v_set. unfold_fields. rdo 0 1.
  rewrite <- app_assoc in E. cbn [app] in E.
  unfold wr. eapply (ok_write _ _ 1 buf (length xs)); [reflexivity|rewrite E, app_length; cbn [length]; lia|done|].
  rewrite E, insert_here. chunks. apply ok_done.
  exists [C a [e; at_ buf; length (vals buf); length (xs ++ x :: zs)]; with_vals buf ((xs ++ x :: zs) ++ rest)].
  split_and!; [| |done].
  - rewrite E, !app_length. cbn [app length]. by rewrite <- app_assoc.
  - rewrite <- E. eapply vec_same; [done|done| |done]. rewrite E, !app_length. cbn [length]. rewrite app_length. lia.
Qed.
Lemma ok_v_destroy a n xs ca : vec a n xs ca →
  ok R (ca ++ F) (v_destroy a) (λ o cs', ∃ vs, cs' = C a vs :: F ∧ length vs = 4 ∧ o = Ok tt).
Proof.
  intros (e & buf & rest & I & E & -> & ->). cbn [app]. unfold v_destroy.
  eapply ok_mono; [by eapply ok_release|]. intros o cs' [-> ->]. eauto.
Qed.
End writers.
