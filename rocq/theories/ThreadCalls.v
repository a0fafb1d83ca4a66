(** Calls of ThreadModel.v do what ThreadSpec.v says, and so do threads. *)
From stdpp Require Import prelude gmap.
From Verif Require Import ThreadModel ThreadSpec ThreadLogic ThreadProofs ThreadStrings.
Implicit Types (a b p q n i : nat) (vs xs ys : list nat) (c d : chunk) (cs R F : list chunk) (x y : obj) (own shared : objs) (m h : mem).

(** ** Objects as chunks *)
Definition rep a x cs : Prop :=
  match x with
  | ORaw n => ∃ vs, length vs = n ∧ cs = [C a vs]
  | OVec n xs => vec a n xs cs
  | OStr n xs => str a n xs cs
  | OBits vs => cs = [C a vs]
  | OOpt o => opt a o cs
  end.
Lemma sat_one c h : sat [c] h ↔ h = cmap c.
Proof.
  split.
  - intros (h' & -> & _ & ->). by rewrite (right_id_L ∅ (∪)).
  - intros ->. exists ∅. split_and!; [by rewrite (right_id_L ∅ (∪))|apply map_disjoint_empty_r|done].
Qed.
Lemma sat_two c d h : sat [c; d] h ↔ h = cmap c ∪ cmap d ∧ cmap c ##ₘ cmap d.
Proof.
  split.
  - intros (h' & -> & D & S). apply sat_one in S as ->. done.
  - intros [-> D]. exists (cmap d). split_and!; [done|done|by apply sat_one].
Qed.
Lemma layout_rep a x m : layout a x m ↔ ∃ cs, rep a x cs ∧ sat cs m.
Proof.
  destruct x as [n|n xs|n xs|vs|[v|]]; cbn [layout rep].
  - split.
    + intros (vs & L & ->). exists [C a vs]. split; [eauto|by apply sat_one].
    + intros (cs & (vs & L & ->) & S). apply sat_one in S as ->. eauto.
  - split.
    + intros [(-> & -> & ->)|(b & rest & N & -> & N' & -> & D)].
      * exists [C a [0; 0; 0; 0]; C 0 []]. split; [by exists 0, (C 0 []), []; split; [left|]|].
        apply sat_two. split; [cbn [cmap cells]; by rewrite (right_id_L ∅ (∪))|apply map_disjoint_empty_r].
      * exists [C a [1; b; length (xs ++ rest); length xs]; B b (xs ++ rest)]. split; [by apply vec_new|by apply sat_two].
    + intros (cs & (e & buf & rest & I & E & -> & ->) & S). apply sat_two in S as [-> D].
      destruct I as [[-> ->]|[-> (b & vs & -> & N & N')]]; cbn [vals at_ cmap] in *.
      * left. destruct xs; [|done]. split_and!; [done..|]. cbn [cells length]. by rewrite (right_id_L ∅ (∪)).
      * right. subst vs. exists b, rest. split_and!; [done|done| |done|done]. by destruct (xs ++ rest).
  - split.
    + intros [(rest & -> & L & ->)|(b & rest & unused & N & N' & L & L' & -> & D)].
      * eexists. split; [left; by exists rest|by apply sat_one].
      * eexists. split; [right; by exists b, rest, unused|by apply sat_two].
    + intros (cs & [(rest & -> & L & ->)|(b & rest & unused & N & N' & L & L' & ->)] & S).
      * left. apply sat_one in S as ->. by exists rest.
      * right. apply sat_two in S as [-> D]. by exists b, rest, unused.
  - split.
    + intros ->. eexists. split; [done|by apply sat_one].
    + intros (cs & -> & S). by apply sat_one in S.
  - cbn [opt]. split.
    + intros ->. eexists. split; [done|by apply sat_one].
    + intros (cs & -> & S). by apply sat_one in S.
  - cbn [opt]. split.
    + intros [v ->]. eexists. split; [by exists v|by apply sat_one].
    + intros (cs & [v ->] & S). apply sat_one in S. by exists v.
Qed.
Inductive owned : objs → list chunk → Prop :=
  | owned_none : owned ∅ []
  | owned_more a x own ca cs : own !! a = None → rep a x ca → owned own cs → owned (<[a := x]> own) (ca ++ cs)
  | owned_perm own cs cs' : cs ≡ₚ cs' → owned own cs → owned own cs'.
Lemma memory_owned own m : memory_of own m ↔ ∃ cs, owned own cs ∧ sat cs m.
Proof.
  split.
  - induction 1 as [|a x own m1 m2 N L _ (cs & O & S) D].
    + exists []. split; [constructor|done].
    + apply layout_rep in L as (ca & Ra & Sa). exists (ca ++ cs). split; [by constructor|]. apply sat_app. eauto 10.
  - intros (cs & O & S). revert m S. induction O as [|a x own ca cs N Ra O IH|own cs cs' P O IH]; intros m S.
    + rewrite S. constructor.
    + apply sat_app in S as (m1 & m2 & -> & D & S1 & S2). constructor; [done| |auto|done].
      apply layout_rep. eauto.
    + apply IH. by eapply sat_perm.
Qed.
Lemma owned_take own cs a x : owned own cs → own !! a = Some x →
  ∃ ca F, cs ≡ₚ ca ++ F ∧ rep a x ca ∧ owned (delete a own) F.
Proof.
  induction 1 as [|b y own cb cs N Rb O IH|own cs cs' P O IH]; intros E.
  - by rewrite lookup_empty in E.
  - destruct (decide (a = b)) as [->|D].
    + rewrite lookup_insert in E. injection E as ->. exists cb, cs. split_and!; [done..|]. by rewrite delete_insert.
    + rewrite lookup_insert_ne in E by done. destruct (IH E) as (ca & F & P & Ra & O').
      exists ca, (cb ++ F). split_and!; [|done|].
      * rewrite P, !app_assoc. by rewrite (Permutation_app_comm cb ca).
      * rewrite delete_insert_ne by done. constructor; [by rewrite lookup_delete_ne|done|done].
  - destruct (IH E) as (ca & F & P' & Ra & O'). exists ca, F. by rewrite <- P.
Qed.
Lemma owned_put own a x ca F : rep a x ca → owned (delete a own) F → owned (<[a := x]> own) (ca ++ F).
Proof. intros Ra O. rewrite <- insert_delete_insert. constructor; [apply lookup_delete|done|done]. Qed.
Lemma owned_sub own cs a x : owned own cs → own !! a = Some x → ∃ ca, rep a x ca ∧ ca ⊆ cs.
Proof.
  intros O E. destruct (owned_take _ _ _ _ O E) as (ca & F & P & Ra & _). exists ca. split; [done|].
  intros c I. rewrite P, elem_of_app. by left.
Qed.
Lemma ok_result {A} R cs (p : prog A) (f : A → val) (Q : outcome val → list chunk → Prop) :
  ok R cs p (λ o cs', Q match o with Ok v => Ok (f v) | Exn e => Exn e end cs') → ok R cs (bind p (λ v, ret (f v))) Q.
Proof.
  intros O. eapply ok_bind; [apply O|..]; cbn beta iota; [|done]. intros v cs' q. by apply ok_done.
Qed.
(** two objects do not start at the same cell *)
Lemma ok_absurd {A} R cs (p : prog A) Q a v w vs ws : C a (v :: vs) ∈ R → C a (w :: ws) ∈ cs → ok R cs p Q.
Proof.
  intros I J r h SR S D. exfalso.
  apply (map_disjoint_spec r h) with (i := inl a) (x := v) (y := w) in D; [done|..].
  - eapply lookup_weaken; [|by eapply sat_sub]. apply lookup_insert.
  - eapply lookup_weaken; [|by eapply sat_sub]. apply lookup_insert.
Qed.

Section calls.
Context (shared own : objs) (R cs : list chunk) (HR : owned shared R) (Hcs : owned own cs).
Lemma sees_sub a x : sees shared own a x → ∃ ca, rep a x ca ∧ ca ⊆ R ++ cs.
Proof.
  intros [E|E].
  - destruct (owned_sub _ _ _ _ Hcs E) as (ca & Ra & S). exists ca. split; [done|]. intros c I. rewrite elem_of_app. auto.
  - destruct (owned_sub _ _ _ _ HR E) as (ca & Ra & S). exists ca. split; [done|]. intros c I. rewrite elem_of_app. auto.
Qed.
(** an object besides [a] *)
Lemma sees_other a F b y : owned (delete a own) F → sees shared own b y → a ≠ b → ∃ cb, rep b y cb ∧ cb ⊆ R ++ F.
Proof.
  intros O [E|E] N.
  - destruct (owned_sub _ _ b y O) as (cb & Rb & S); [by rewrite lookup_delete_ne|].
    exists cb. split; [done|]. intros c I. rewrite elem_of_app. auto.
  - destruct (owned_sub _ _ _ _ HR E) as (cb & Rb & S). exists cb. split; [done|]. intros c I. rewrite elem_of_app. auto.
Qed.
(** functions that change nothing *)
Lemma ok_reads {A} (p : prog A) (f : A → val) (o : outcome A) (c : call) :
  ok R cs p (λ o' cs', o' = o ∧ cs' = cs) → means shared own c match o with Ok v => Ok (f v) | Exn e => Exn e end own →
  ok R cs (bind p (λ v, ret (f v))) (λ o cs', ∃ own', means shared own c o own' ∧ owned own' cs').
Proof.
  intros O M. apply ok_result. eapply ok_mono; [apply O|]. intros o' cs' [-> ->]. eauto.
Qed.
(** functions that change one object *)
Lemma ok_writes (p : prog unit) a x (c : call) : own !! a = Some x →
  (∀ ca F, rep a x ca → owned (delete a own) F → ok R (ca ++ F) p (λ o cs',
    (∃ y ca', cs' = ca' ++ F ∧ rep a y ca' ∧ o = Ok tt ∧ means shared own c (Ok VUnit) (<[a := y]> own)) ∨
    (∃ ca' e, cs' = ca' ++ F ∧ rep a x ca' ∧ o = Exn e ∧ means shared own c (Exn e) own))) →
  ok R cs (unit_of p) (λ o cs', ∃ own', means shared own c o own' ∧ owned own' cs').
Proof.
  intros E O. destruct (owned_take _ _ _ _ Hcs E) as (ca & F & P & Ra & OF).
  eapply ok_perm; [apply P|]. unfold unit_of. apply (ok_result _ _ p (λ _, VUnit)). eapply ok_mono; [by apply O|].
  cbn beta. intros o cs' [(y & ca' & -> & Ry & -> & M)|(ca' & e & -> & Ra' & -> & M)].
  - exists (<[a := y]> own). split; [done|]. by apply owned_put.
  - exists own. split; [done|]. rewrite <- (insert_id own a x) by done. by apply owned_put.
Qed.

Lemma ok_call (c : call) : allowed shared own c →
  ok R cs (code c) (λ o cs', ∃ own', means shared own c o own' ∧ owned own' cs').
Proof.
  destruct c as [a|a|a i|a i|a b|a b|a b|a b|a b|a b|a v|a|a i v|a n v|a n|a|a i n|a i v|a
    |a|a i|a b|a b|a v|a|a n|a b|a b|a|a|a i|a n|a b n|a i v|a i|a b n|a|a|a v|a|a b]; cbn [allowed code].
  - intros (n & xs & S). destruct (sees_sub _ _ S) as (ca & Ra & Sub).
    eapply (ok_reads _ _ (Ok _)); [by eapply ok_v_size|]. by exists n, xs.
  - intros (n & xs & S). destruct (sees_sub _ _ S) as (ca & Ra & Sub).
    eapply (ok_reads _ _ (Ok _)); [by eapply ok_v_capacity|]. by exists n, xs.
  - intros (n & xs & S & L). destruct (sees_sub _ _ S) as (ca & Ra & Sub).
    destruct (lookup_lt_is_Some_2 xs i L) as [v Ev].
    eapply (ok_reads _ _ (Ok _)); [by eapply ok_v_index|]. by exists n, xs, v.
  - intros (n & xs & S). destruct (sees_sub _ _ S) as (ca & Ra & Sub).
    eapply (ok_reads _ _ match xs !! i with Some v => Ok v | None => Exn OutOfRange end).
    + eapply ok_mono; [by eapply ok_v_at|]. by intros o cs' [-> ->].
    + exists n, xs. split; [done|]. by destruct (xs !! i).
  - intros (n & xs & k & ys & S & T). destruct (sees_sub _ _ S) as (ca & Ra & Sub), (sees_sub _ _ T) as (cb & Rb & Sub').
    eapply (ok_reads _ _ (Ok _)); [by eapply ok_v_eq|]. by exists n, xs, k, ys.
  - intros (n & xs & k & ys & S & T). destruct (sees_sub _ _ S) as (ca & Ra & Sub), (sees_sub _ _ T) as (cb & Rb & Sub').
    eapply (ok_reads _ _ (Ok _)); [by eapply ok_v_lt|]. by exists n, xs, k, ys.
  - (* copies *) intros (E & k & ys & T). eapply ok_writes; [done|]. intros ca F (vs & L & ->) OF. cbn [app].
    destruct (decide (a = b)) as [<-|N].
    { destruct T as [T|T]; [congruence|]. destruct (owned_sub _ _ _ _ HR T) as (cb & (e & buf & rest & _ & _ & _ & ->) & Sub).
      destruct vs; [done|]. eapply ok_absurd; [apply Sub; left|left]. }
    destruct (sees_other _ _ _ _ OF T N) as (cb & Rb & Sub).
    eapply ok_mono; [by eapply ok_v_copy|]. cbn beta.
    intros o cs' [(ca' & n' & -> & Ln & V' & ->)|(vs' & -> & L' & ->)]; [left|right].
    + exists (OVec n' ys), ca'. split_and!; [done..|]. exists k, ys. split; [done|]. left. by exists n'.
    + exists [C a vs'], BadAlloc. split_and!; [done|by exists vs'|done|]. exists k, ys. split; [done|]. by right.
  - intros (n & xs & k & ys & E & T). eapply ok_writes; [done|]. intros ca F Ra OF.
    destruct (decide (a = b)) as [<-|N].
    { destruct T as [T|T].
      - rewrite E in T. injection T as <- <-. unfold v_copy_assign. rewrite Nat.eqb_refl. apply ok_done. left.
        exists (OVec n xs), ca. split_and!; [done..|]. exists n, xs, n, xs. split_and!; [done|by left|]. left. exists n.
        split; [|done]. destruct Ra as (e & buf & rest & _ & Eb & -> & _). rewrite Eb, app_length. lia.
      - destruct (owned_sub _ _ _ _ HR T) as (cb & (e & buf & rest & _ & _ & _ & ->) & Sub).
        destruct Ra as (e' & buf' & rest' & _ & _ & _ & ->). eapply ok_absurd; [apply Sub; left|left]. }
    destruct (sees_other _ _ _ _ OF T N) as (cb & Rb & Sub).
    eapply ok_mono; [by eapply ok_v_copy_assign|]. cbn beta.
    intros o cs' [(ca' & n' & -> & Ln & V' & ->)|[-> ->]]; [left|right].
    + exists (OVec n' ys), ca'. split_and!; [done..|]. exists n, xs, k, ys. split_and!; [done..|]. left. by exists n'.
    + exists ca, BadAlloc. split_and!; [done..|]. exists n, xs, k, ys. split_and!; [done..|]. by right.
  - (* move *) intros (n & xs & k & ys & E & T). destruct (decide (a = b)) as [<-|N].
    { unfold v_move_assign. rewrite Nat.eqb_refl. apply ok_done. exists own. split; [|done].
      exists k, ys. split_and!; [done..|]. by rewrite decide_True. }
    destruct (owned_take _ _ _ _ Hcs E) as (ca & F & P & Ra & OF).
    destruct (owned_take _ _ b (OVec k ys) OF) as (cb & F' & P' & Rb & OF'); [by rewrite lookup_delete_ne|].
    eapply ok_perm; [rewrite P, P'; reflexivity|]. unfold unit_of. apply (ok_result _ _ _ (λ _, VUnit)).
    eapply ok_mono; [by eapply ok_v_move_assign|]. cbn beta. intros o cs' (ca' & cb' & -> & Va & Vb & ->).
    eexists. split; [exists k, ys; split_and!; [done|done|by rewrite decide_False]|].
    apply owned_put; [done|]. rewrite delete_insert_ne by done. by apply owned_put.
  - (* swap *) intros (n & xs & k & ys & E & T). destruct (decide (a = b)) as [<-|N].
    { rewrite E in T. injection T as <- <-. destruct (owned_take _ _ _ _ Hcs E) as (ca & F & P & Ra & OF).
      eapply ok_perm; [apply P|]. unfold unit_of. apply (ok_result _ _ _ (λ _, VUnit)).
      eapply ok_mono; [by eapply ok_v_swap_self|]. cbn beta. intros o cs' (-> & ->).
      exists (<[a := OVec n xs]> (<[a := OVec n xs]> own)). split; [by exists n, xs, n, xs|].
      rewrite insert_insert. by apply owned_put. }
    destruct (owned_take _ _ _ _ Hcs E) as (ca & F & P & Ra & OF).
    destruct (owned_take _ _ b (OVec k ys) OF) as (cb & F' & P' & Rb & OF'); [by rewrite lookup_delete_ne|].
    eapply ok_perm; [rewrite P, P'; reflexivity|]. unfold unit_of. apply (ok_result _ _ _ (λ _, VUnit)).
    eapply ok_mono; [by eapply ok_v_swap|]. cbn beta. intros o cs' (ca' & cb' & -> & Va & Vb & ->).
    eexists. split; [exists n, xs, k, ys; by split_and!|].
    apply owned_put; [done|]. rewrite delete_insert_ne by done. by apply owned_put.
  - (* push_back *) intros (n & xs & E). eapply ok_writes; [done|]. intros ca F Ra OF.
    eapply ok_mono; [by eapply ok_v_push_back|]. cbn beta.
    intros o cs' [(ca' & n' & -> & Ln & V' & -> & Hn)|(-> & -> & Ln)]; [left|right].
    + exists (OVec n' (xs ++ [v])), ca'. split_and!; [done..|]. exists n, xs. split; [done|]. case_decide as D.
      * by rewrite Hn.
      * left. by exists n'.
    + exists ca, BadAlloc. split_and!; [done..|]. exists n, xs. split; [done|]. rewrite decide_False by lia. by right.
  - intros (n & xs & E & N). destruct xs as [|v xs _] using rev_ind; [done|]. eapply ok_writes; [done|]. intros ca F Ra OF.
    eapply ok_mono; [by eapply ok_v_pop_back|]. cbn beta. intros o cs' (ca' & -> & V' & ->). left.
    exists (OVec n xs), ca'. split_and!; [done..|]. by exists n, xs, v.
  - (* insert *) intros (n & xs & E & L). rewrite <- (take_drop i xs) in E.
    destruct (owned_take _ _ _ _ Hcs E) as (ca & F & P & Ra & OF). eapply ok_perm; [apply P|]. unfold nat_of. apply (ok_result _ _ _ VNat).
    assert (length (take i xs) = i) as Li by (rewrite take_length; lia).
    pose proof (ok_v_insert R F a n (take i xs) (drop i xs) ca v Ra) as O. rewrite Li in O.
    eapply ok_mono; [apply O|]. cbn beta. intros o cs' [(ca' & n' & -> & Ln & V' & -> & Hn)|(-> & -> & Ln)].
    + exists (<[a := OVec n' (take i xs ++ v :: drop i xs)]> own). split; [|by apply owned_put].
      exists n, (take i xs), (drop i xs). split_and!; [done..|]. cbv zeta. case_decide as D.
      * by rewrite Hn.
      * left. by exists n'.
    + exists own. split.
      * exists n, (take i xs), (drop i xs). split_and!; [done..|]. cbv zeta. rewrite decide_False by lia. by right.
      * eapply owned_perm; [apply P|done].
  - (* resize *) intros (k & xs & E). eapply ok_writes; [done|]. intros ca F Ra OF.
    eapply ok_mono; [by eapply ok_v_resize|]. cbn beta.
    intros o cs' [(ca' & n' & -> & V' & -> & Hn & Ln)|(-> & -> & Ln)]; [left|right].
    + eexists (OVec n' _), ca'. split_and!; [done|apply V'|done|]. exists k, xs. split; [done|]. case_decide as D.
      * by rewrite Hn.
      * left. exists n'. split; [apply Ln; lia|done].
    + exists ca, BadAlloc. split_and!; [done..|]. exists k, xs. split; [done|]. rewrite decide_False by lia. by right.
  - intros (k & xs & E). eapply ok_writes; [done|]. intros ca F Ra OF.
    eapply ok_mono; [by eapply ok_v_reserve|]. cbn beta.
    intros o cs' [(ca' & n' & -> & Ln & V' & -> & Hn)|(-> & -> & Ln)]; [left|right].
    + exists (OVec n' xs), ca'. split_and!; [done..|]. exists k, xs. split; [done|]. case_decide as D.
      * by rewrite Hn.
      * left. by exists n'.
    + exists ca, BadAlloc. split_and!; [done..|]. exists k, xs. split; [done|]. rewrite decide_False by lia. by right.
  - intros (n & xs & E). eapply ok_writes; [done|]. intros ca F Ra OF.
    eapply ok_mono; [by eapply ok_v_clear|]. cbn beta. intros o cs' (ca' & -> & V' & ->). left.
    exists (OVec n []), ca'. split_and!; [done..|]. by exists n, xs.
  - intros (k & xs & E & L). rewrite <- (take_drop i xs), <- (take_drop n (drop i xs)) in E.
    eapply ok_writes; [done|]. intros ca F Ra OF.
    assert (length (take i xs) = i) as L1 by (rewrite take_length; lia).
    assert (length (take n (drop i xs)) = n) as L2 by (rewrite take_length, drop_length; lia).
    pose proof (ok_v_erase R F a k (take i xs) (take n (drop i xs)) (drop n (drop i xs)) ca Ra) as O. rewrite L1, L2 in O.
    eapply ok_mono; [apply O|]. cbn beta. intros o cs' (ca' & -> & V' & ->). left.
    exists (OVec k (take i xs ++ drop n (drop i xs))), ca'. split_and!; [done..|].
    by exists k, (take i xs), (take n (drop i xs)), (drop n (drop i xs)).
  - intros (k & xs & E & L). destruct (lookup_lt_is_Some_2 xs i L) as [w Ew].
    apply elem_of_list_split_length in Ew as (l1 & l2 & -> & ->).
    eapply ok_writes; [done|]. intros ca F Ra OF.
    eapply ok_mono; [by eapply ok_v_set|]. cbn beta. intros o cs' (ca' & -> & V' & ->). left.
    exists (OVec k (l1 ++ v :: l2)), ca'. split_and!; [done..|]. by exists k, l1, w, l2.
  - intros (n & xs & E). eapply ok_writes; [done|]. intros ca F Ra OF.
    eapply ok_mono; [by eapply ok_v_destroy|]. cbn beta. intros o cs' (vs & -> & L & ->). left.
    exists (ORaw 4), [C a vs]. split_and!; [done|by exists vs|done|done].
  - (* string *) intros (n & xs & S). destruct (sees_sub _ _ S) as (ca & Ra & Sub).
    eapply (ok_reads _ _ (Ok _)); [by eapply ok_s_size|]. by exists n, xs.
  - intros (n & xs & S). destruct (sees_sub _ _ S) as (ca & Ra & Sub).
    eapply (ok_reads _ _ match xs !! i with Some v => Ok v | None => Exn OutOfRange end).
    + eapply ok_mono; [by eapply ok_s_at|]. by intros o cs' [-> ->].
    + exists n, xs. split; [done|]. by destruct (xs !! i).
  - intros (n & xs & k & ys & S & T). destruct (sees_sub _ _ S) as (ca & Ra & Sub), (sees_sub _ _ T) as (cb & Rb & Sub').
    eapply (ok_reads _ _ (Ok _)); [by eapply ok_s_eq|]. by exists n, xs, k, ys.
  - intros (E & k & ys & T). eapply ok_writes; [done|]. intros ca F (vs & L & ->) OF. cbn [app].
    destruct (decide (a = b)) as [<-|N].
    { destruct T as [T|T]; [congruence|]. destruct vs; [done|].
      destruct (owned_sub _ _ _ _ HR T) as (cb & [(rest & _ & _ & ->)|(b & rest & unused & _ & _ & _ & _ & ->)] & Sub);
        (eapply ok_absurd; [apply Sub; left|left]). }
    destruct (sees_other _ _ _ _ OF T N) as (cb & Rb & Sub).
    eapply ok_mono; [by eapply ok_s_copy|]. cbn beta.
    intros o cs' [(ca' & n' & -> & Ln & V' & ->)|(vs' & -> & L' & ->)]; [left|right].
    + exists (OStr n' ys), ca'. split_and!; [done..|]. exists k, ys. split; [done|]. left. by exists n'.
    + exists [C a vs'], BadAlloc. split_and!; [done|by exists vs'|done|]. exists k, ys. split; [done|]. by right.
  - intros (n & xs & E). eapply ok_writes; [done|]. intros ca F Ra OF.
    eapply ok_mono; [by eapply ok_s_push_back|]. cbn beta.
    intros o cs' [(ca' & n' & -> & Ln & V' & -> & Hn)|(-> & -> & Ln)]; [left|right].
    + exists (OStr n' (xs ++ [v])), ca'. split_and!; [done..|]. exists n, xs. split; [done|]. case_decide as D.
      * by rewrite Hn.
      * left. by exists n'.
    + exists ca, BadAlloc. split_and!; [done..|]. exists n, xs. split; [done|]. rewrite decide_False by lia. by right.
  - intros (n & xs & E & N). destruct xs as [|v xs _] using rev_ind; [done|]. eapply ok_writes; [done|]. intros ca F Ra OF.
    eapply ok_mono; [by eapply ok_s_pop_back|]. cbn beta. intros o cs' (ca' & -> & V' & ->). left.
    exists (OStr n xs), ca'. split_and!; [done..|]. by exists n, xs, v.
  - intros (k & xs & E). eapply ok_writes; [done|]. intros ca F Ra OF.
    eapply ok_mono; [by eapply ok_s_reserve|]. cbn beta.
    intros o cs' [(ca' & n' & -> & Ln & V' & -> & Hn)|(-> & -> & Ln)]; [left|right].
    + exists (OStr n' xs), ca'. split_and!; [done..|]. exists k, xs. split; [done|]. case_decide as D.
      * by rewrite Hn.
      * left. by exists n'.
    + exists ca, BadAlloc. split_and!; [done..|]. exists k, xs. split; [done|]. rewrite decide_False by lia. by right.
  - intros (n & xs & k & ys & E & T). destruct (decide (a = b)) as [<-|N].
    { unfold s_move_assign. rewrite Nat.eqb_refl. apply ok_done. exists own. split; [|done].
      exists k, ys. split_and!; [done..|]. by rewrite decide_True. }
    destruct (owned_take _ _ _ _ Hcs E) as (ca & F & P & Ra & OF).
    destruct (owned_take _ _ b (OStr k ys) OF) as (cb & F' & P' & Rb & OF'); [by rewrite lookup_delete_ne|].
    eapply ok_perm; [rewrite P, P'; reflexivity|]. unfold unit_of. apply (ok_result _ _ _ (λ _, VUnit)).
    eapply ok_mono; [by eapply ok_s_move_assign|]. cbn beta. intros o cs' (ca' & cb' & P2 & Va & -> & Vb).
    eexists. split; [exists k, ys; split_and!; [done|done|rewrite decide_False by done; reflexivity]|].
    eapply owned_perm; [symmetry; apply P2|]. case_decide as D.
    + subst cb'. apply owned_put; [done|]. by eapply owned_perm; [apply P'|].
    + apply owned_put; [done|]. rewrite delete_insert_ne by done. by apply owned_put.
  - intros (n & xs & k & ys & E & T). destruct (decide (a = b)) as [<-|N].
    { rewrite E in T. injection T as <- <-. unfold s_swap. rewrite Nat.eqb_refl. apply ok_done. exists own. split; [|done].
      exists n, xs, n, xs. split_and!; [done..|]. rewrite (insert_id own) by done. by rewrite insert_id. }
    destruct (owned_take _ _ _ _ Hcs E) as (ca & F & P & Ra & OF).
    destruct (owned_take _ _ b (OStr k ys) OF) as (cb & F' & P' & Rb & OF'); [by rewrite lookup_delete_ne|].
    eapply ok_perm; [rewrite P, P'; reflexivity|]. unfold unit_of. apply (ok_result _ _ _ (λ _, VUnit)).
    eapply ok_mono; [by eapply ok_s_swap|]. cbn beta. intros o cs' (ca' & cb' & P2 & Va & Vb & ->).
    eexists. split; [exists n, xs, k, ys; by split_and!|].
    eapply owned_perm; [symmetry; apply P2|].
    apply owned_put; [done|]. rewrite delete_insert_ne by done. by apply owned_put.
  - intros (n & xs & E). eapply ok_writes; [done|]. intros ca F Ra OF.
    eapply ok_mono; [by eapply ok_s_clear|]. cbn beta. intros o cs' (ca' & -> & V' & ->). left.
    exists (OStr n []), ca'. split_and!; [done..|]. by exists n, xs.
  - intros (n & xs & E). eapply ok_writes; [done|]. intros ca F Ra OF.
    eapply ok_mono; [by eapply ok_s_release|]. cbn beta. intros o cs' (vs & -> & L & ->). left.
    exists (ORaw 25), [C a vs]. split_and!; [done|by exists vs|done|done].
  - (* bitset *) intros (vs & S & L). destruct (sees_sub _ _ S) as (ca & -> & Sub).
    destruct (lookup_lt_is_Some_2 vs (i / 8) L) as [v Ev].
    eapply (ok_reads _ _ (Ok _)); [eapply ok_b_test; [apply Sub; left|done]|].
    exists vs, (Nat.testbit v (i mod 8)). split_and!; [done| |done]. unfold bit. by rewrite Ev.
  - intros (vs & S & L). destruct (sees_sub _ _ S) as (ca & -> & Sub).
    eapply (ok_reads _ _ (Ok _)); [eapply ok_b_count; [apply Sub; left|done]|].
    exists vs. split; [done|]. split; [|done]. by rewrite count_bits, L.
  - intros (vs & ws & S & T & L & L'). destruct (sees_sub _ _ S) as (ca & -> & Sub), (sees_sub _ _ T) as (cb & -> & Sub').
    eapply (ok_reads _ _ (Ok _)); [eapply ok_b_eq; [apply Sub; left|apply Sub'; left|done|done]|]. by exists vs, ws.
  - intros (vs & E & L). destruct (lookup_lt_is_Some_2 vs (i / 8) L) as [w Ew].
    eapply ok_writes; [done|]. intros ca F -> OF.
    eapply ok_mono; [apply (ok_b_update R F a vs i w (λ w, if v then Nat.setbit w (i mod 8) else Nat.clearbit w (i mod 8)) Ew)|].
    cbn beta. intros o cs' [-> ->]. left. eexists (OBits _), [C a _]. split_and!; [done|done|done|].
    exists vs. eexists. split_and!; [done|by rewrite insert_length| |done].
    intros j. rewrite (bit_insert _ _ w) by
      (done || (intros k Nk; destruct v; [by rewrite Nat.setbit_neq|by rewrite Nat.clearbit_neq])).
    case_decide; [|done]. f_equal. destruct v; [apply Nat.setbit_eq|apply Nat.clearbit_eq].
  - intros (vs & E & L). destruct (lookup_lt_is_Some_2 vs (i / 8) L) as [w Ew].
    eapply ok_writes; [done|]. intros ca F -> OF.
    eapply ok_mono; [apply (ok_b_update R F a vs i w (λ w, Nat.lxor w (2 ^ (i mod 8))) Ew)|].
    cbn beta. intros o cs' [-> ->]. left. eexists (OBits _), [C a _]. split_and!; [done|done|done|].
    exists vs. eexists. split_and!; [done|by rewrite insert_length| |done].
    intros j. rewrite (bit_insert _ _ w) by
      (done || (intros k Nk; rewrite Nat.lxor_spec, Nat.pow2_bits_false by done; apply xorb_false_r)).
    case_decide as D; [|done]. subst j. unfold bit. rewrite Ew. cbn [fmap option_fmap option_map]. f_equal.
    by rewrite Nat.lxor_spec, Nat.pow2_bits_true, xorb_true_r.
  - intros (vs & ws & E & T & L & L'). eapply ok_writes; [done|]. intros ca F -> OF.
    assert ((∃ t1 t2, C b (t1 ++ ws ++ t2) ∈ R ++ F ∧ length t1 = length (@nil nat)) ∨ b = a ∧ ws = vs) as O.
    { destruct (decide (a = b)) as [<-|N].
      - destruct T as [T|T]; [right; split; [done|congruence]|]. left. exists [], []. rewrite app_nil_r. split; [|done].
        destruct (owned_sub _ _ _ _ HR T) as (cb & -> & Sub). rewrite elem_of_app. left. apply Sub. left.
      - left. exists [], []. rewrite app_nil_r. split; [|done].
        destruct (sees_other _ _ _ _ OF T N) as (cb & -> & Sub). apply Sub. left. }
    pose proof (ok_b_and R F a b [] [] vs ws n L L' O) as G. cbn [app length] in G. rewrite !app_nil_r, !Nat.add_0_r in G.
    eapply ok_mono; [apply G|]. cbn beta. intros o cs' [-> ->]. left. eexists (OBits _), [C a _]. split_and!; [done|done|done|].
    exists vs, ws. eexists. split_and!; [done|done| | |done].
    + rewrite zip_with_length. lia.
    + intros j. apply bit_and. congruence.
  - (* optional *) intros (x & S). destruct (sees_sub _ _ S) as (ca & Ra & Sub).
    eapply (ok_reads _ _ (Ok _)); [by eapply ok_o_has_value|]. by exists x.
  - intros (x & S). destruct (sees_sub _ _ S) as (ca & Ra & Sub).
    eapply (ok_reads _ _ match x with Some v => Ok v | None => Exn BadAccess end); [by eapply ok_o_value|].
    exists x. split; [done|]. by destruct x.
  - intros (x & E). eapply ok_writes; [done|]. intros ca F Ra OF.
    eapply ok_mono; [by eapply ok_o_assign|]. intros o cs' [-> ->]. left. by exists (OOpt (Some v)), [C a [v; 1]].
  - intros (x & E). eapply ok_writes; [done|]. intros ca F Ra OF.
    eapply ok_mono; [by eapply ok_o_reset|]. intros o cs' [-> [v ->]]. left. exists (OOpt None), [C a [v; 0]].
    split_and!; [done|by exists v|done|done].
  - intros (x & y & E & T). eapply ok_writes; [done|]. intros ca F Ra OF.
    destruct (decide (a = b)) as [<-|N].
    { destruct T as [T|T].
      - rewrite E in T. injection T as <-. unfold o_copy_assign. rewrite Nat.eqb_refl. apply ok_done. left.
        exists (OOpt x), ca. split_and!; [done..|]. exists x. split; [by left|done].
      - destruct (owned_sub _ _ _ _ HR T) as (cb & Rb & Sub). apply opt_cell in Rb as (v & -> & _).
        apply opt_cell in Ra as (w & -> & _). eapply ok_absurd; [apply Sub; left|left]. }
    destruct (sees_other _ _ _ _ OF T N) as (cb & Rb & Sub).
    eapply ok_mono; [by eapply ok_o_copy_assign|]. cbn beta. intros o cs' [-> (ca' & -> & V')]. left.
    exists (OOpt y), ca'. split_and!; [done..|]. by exists y.
Qed.
End calls.

Lemma ok_thread shared R (t : client) : owned shared R → ∀ own cs, owned own cs → well_behaved shared own t →
  ok R cs (thread t) (λ o cs', ∃ os own', o = Ok os ∧ alone shared own t os own' ∧ owned own' cs').
Proof.
  intros HR. induction t as [|c k IH]; intros own cs Hcs; cbn [well_behaved thread alone].
  - intros _. apply ok_done. by exists [], own.
  - intros [A W]. eapply ok_catch; [by eapply ok_call|]. cbn beta. intros o cs' (own1 & M & O1).
    eapply ok_bind; [by eapply IH; [|by apply W]|..]; cbn beta.
    + intros os cs2 (os' & own2 & [= <-] & Al & O2). apply ok_done. exists (o :: os), own2. split_and!; [done| |done].
      by exists o, os, own1.
    + by intros e cs2 (os' & own2 & ? & _).
Qed.
