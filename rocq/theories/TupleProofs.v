(** Calls on tuples do what the specification says. *)
From stdpp Require Import prelude gmap.
From Verif Require Import Cpp OrderSpec OrderProofs TupleModel TupleSpec.

(** ** The first [k] elements of one list, followed by the rest of another *)
Definition part {A} (k : nat) (a b : list A) : list A := take k a ++ drop k b.
Section part.
Context {A : Type}.
Implicit Types a b : list A.
Lemma part_0 a b : part 0 a b = b.
Proof. done. Qed.
Lemma part_all a b : length a = length b → part (length a) a b = a.
Proof. intros E. unfold part. rewrite firstn_all. rewrite drop_ge by lia. apply app_nil_r. Qed.
Lemma part_same k a : part k a a = a.
Proof. apply take_drop. Qed.
Lemma part_len k a b : length a = length b → length (part k a b) = length a.
Proof. intros E. unfold part. rewrite app_length, take_length, drop_length. lia. Qed.
Lemma part_lookup_lt k i a b : i < k → i < length a → part k a b !! i = a !! i.
Proof. intros Hi Hl. unfold part. rewrite lookup_app_l by (rewrite take_length; lia). by apply lookup_take. Qed.
Lemma part_lookup_ge k i a b : length a = length b → k ≤ i → k ≤ length a → part k a b !! i = b !! i.
Proof.
  intros E Hi Hk. unfold part. rewrite lookup_app_r by (rewrite take_length; lia). rewrite take_length, lookup_drop. f_equal. lia.
Qed.
Lemma part_insert k a b t : length a = length b → k < length a → <[k:=t]> (part (S k) a b) = take k a ++ t :: drop (S k) b.
Proof.
  intros E Hk. destruct (lookup_lt_is_Some_2 a k Hk) as [u Hu]. unfold part. rewrite (take_S_r _ _ _ Hu).
  rewrite <-app_assoc. rewrite insert_app_r_alt by (rewrite take_length; lia). rewrite take_length. by replace (k - k `min` length a) with 0 by lia.
Qed.
Lemma part_down k a b v : length a = length b → b !! k = Some v → <[k:=v]> (part (S k) a b) = part k a b.
Proof.
  intros E Hv. pose proof (lookup_lt_Some _ _ _ Hv). rewrite part_insert by lia. unfold part. by rewrite (drop_S _ _ _ Hv).
Qed.
Lemma part_up k a b v : length a = length b → a !! k = Some v → <[k:=v]> (part k a b) = part (S k) a b.
Proof.
  intros E Hv. pose proof (lookup_lt_Some _ _ _ Hv). unfold part. destruct (lookup_lt_is_Some_2 b k) as [u Hu]; [lia|]. rewrite (drop_S _ _ _ Hu).
  rewrite insert_app_r_alt by (rewrite take_length; lia). rewrite take_length. replace (k - k `min` length a) with 0 by lia. cbn [insert list_insert].
  by rewrite (take_S_r _ _ _ Hv), <-app_assoc.
Qed.
End part.
(** what is at each of the positions from the last to the first *)
Definition cell {A D} (l : list A) (g : nat → A → D) (k : nat) : list D := match l !! k with Some p => [g k p] | None => [] end.
Lemma cells {A D} (l : list A) : ∀ (g : nat → A → D), concat (cell l g <$> seq 0 (length l)) = imap g l.
Proof.
  induction l as [|a l IH]; intros g; [done|]. cbn [length seq fmap list_fmap concat imap]. cbn. f_equal.
  rewrite <-fmap_S_seq, <-list_fmap_compose. apply IH.
Qed.
Lemma cells_reverse {A D} (l : list A) (g : nat → A → D) ks : reverse (concat (cell l g <$> ks)) = concat (cell l g <$> reverse ks).
Proof.
  induction ks as [|k ks IH]; [done|]. rewrite reverse_cons, fmap_app, concat_app, !fmap_cons. cbn [concat]. rewrite reverse_app, IH. f_equal.
  cbn. rewrite app_nil_r. unfold cell. by destruct (l !! k).
Qed.

Section proofs.
Context `{C : TupCfg}.
Notation state := (gmap nat (list V)).
Notation N := (length Types).
Implicit Types (m : state) (n : nat) (types : list K).

Definition wf m : Prop := ∀ x l, m !! x = Some l → length l = N.

(** ** Operations that may throw *)
Definition finish {A} (r : A) (n : nat) (ds : list state) (m : state) : res world A :=
  match settle n ds with (None, n') => Ok r (World m n') | (Some d, n') => Exn ElementThrow (World d n') end.
Lemma finish_nil {A} (r : A) n m : finish r n [] m = Ok r (World m n).
Proof. done. Qed.
Lemma settle_app ds ds' n : settle n (ds ++ ds') = match settle n ds with (None, n') => settle n' ds' | r => r end.
Proof. revert n. induction ds as [|d ds IH]; intros n; [done|]. cbn [settle app]. by destruct (fails n). Qed.
Lemma bind_finish {A B} (f : M world A) (g : A → M world B) m n a b ds ds' m1 m2 :
  f (World m n) = finish a n ds m1 → (∀ n', g a (World m1 n') = finish b n' ds' m2) → bind f g (World m n) = finish b n (ds ++ ds') m2.
Proof.
  intros Hf Hg. unfold bind. rewrite Hf. unfold finish. rewrite settle_app. destruct (settle n ds) as [[d|] n']; [done|].
  rewrite Hg. unfold finish. done.
Qed.
Lemma bind_ok_finish {A B} (f : M world A) (g : A → M world B) m n a b ds' m1 m2 :
  f (World m n) = Ok a (World m1 n) → g a (World m1 n) = finish b n ds' m2 → bind f g (World m n) = finish b n ds' m2.
Proof. intros Hf Hg. unfold bind. by rewrite Hf. Qed.
Lemma bind_finish_r {A B} (f : M world A) (g : A → M world B) m n a b ds m1 m2 :
  f (World m n) = finish a n ds m1 → (∀ n', g a (World m1 n') = Ok b (World m2 n')) → bind f g (World m n) = finish b n ds m2.
Proof. intros Hf Hg. rewrite <-(app_nil_r ds). by eapply bind_finish. Qed.
Lemma may_throw_run c d m n : (∀ n', c (World m n') = Ok tt (World d n')) → may_throw c (World m n) = finish tt n [d] m.
Proof. intros Hc. unfold may_throw, finish. cbn [settle nops tups]. destruct (fails n); [|done]. unfold bind. by rewrite Hc. Qed.
Lemma noexcept_ok {A} (f : M world A) w r w' : f w = Ok r w' → noexcept f w = Ok r w'.
Proof. unfold noexcept. by intros ->. Qed.
Lemma noexcept_finish {A} (f : M world A) m n r m' : f (World m n) = finish r n [] m' → noexcept f (World m n) = finish r n [] m'.
Proof. rewrite finish_nil. apply noexcept_ok. Qed.

(** ** Components *)
Lemma rd_run m n x d l v : m !! x = Some l → l !! d = Some v → rd (x, d) (World m n) = Ok v (World m n).
Proof. intros Hx Hd. unfold rd. cbn [tups fst snd]. by rewrite Hx, Hd. Qed.
Lemma wr_run m n x d l v : m !! x = Some l → d < length l → wr (x, d) v (World m n) = Ok tt (World (<[x:=<[d:=v]> l]> m) n).
Proof. intros Hx Hd. unfold wr. cbn [tups fst snd]. rewrite Hx. by rewrite (proj2 (Nat.ltb_lt _ _)). Qed.
Lemma sget_run m n s v : sget m s = Some v → rd s (World m n) = Ok v (World m n).
Proof. destruct s as [x d]. unfold sget. cbn [fst snd]. destruct (m !! x) as [l|] eqn:Hx; [|done]. by apply rd_run. Qed.
Lemma sset_run m n s v m1 : sset m s v = Some m1 → wr s v (World m n) = Ok tt (World m1 n).
Proof.
  destruct s as [x d]. unfold sset. cbn [fst snd]. destruct (m !! x) as [l|] eqn:Hx; [|done]. destruct (l !! d) eqn:Hd; [|done]. intros [= <-].
  apply wr_run; [done|]. by eapply lookup_lt_Some.
Qed.
Lemma rd_ref_run m n r v : sref m r = Some v → rd_ref r (World m n) = Ok v (World m n).
Proof. destruct r as [u|s]; cbn [sref rd_ref]; [by intros [= ->]|apply sget_run]. Qed.
Lemma alive_run m n x l : m !! x = Some l → alive x (World m n) = Ok tt (World m n).
Proof. intros Hx. unfold alive. cbn [tups]. by rewrite Hx. Qed.
Lemma new_value_run m n a v m1 : sarg m a = Some (v, m1) →
  new_value a (World m n) = finish v n (match a with ACopy _ => [m] | AMove _ => [] end) m1.
Proof.
  destruct a as [r|[u|s]]; cbn [sarg new_value].
  - destruct (sref m r) as [u|] eqn:Hr; [|done]. intros [= <- <-]. eapply bind_ok_finish; [by apply rd_ref_run|].
    eapply bind_finish_r; [by apply may_throw_run|done].
  - by intros [= <- <-].
  - destruct (sget m s) as [u|] eqn:Hr; [|done]. destruct (sset m s (moved u)) as [m2|] eqn:Hs; [|done]. intros [= <- <-].
    eapply bind_ok_finish; [by apply sget_run|]. unfold bind. by rewrite (sset_run _ _ _ _ _ Hs).
Qed.
Lemma sargs_app args1 args2 : ∀ m, sargs m (args1 ++ args2) =
  match sargs m args1 with
  | Some (vs1, m1, ds1) => match sargs m1 args2 with Some (vs2, m2, ds2) => Some (vs1 ++ vs2, m2, ds1 ++ ds2) | None => None end
  | None => None
  end.
Proof.
  induction args1 as [|a args1 IH]; intros m; cbn [app sargs].
  - by destruct (sargs m args2) as [[[? ?] ?]|].
  - destruct (sarg m a) as [[v m1]|]; [|done]. rewrite IH. destruct (sargs m1 args1) as [[[vs1 m2] ds1]|]; [|done].
    destruct (sargs m2 args2) as [[[vs2 m3] ds2]|]; [|done]. by rewrite app_assoc.
Qed.
Lemma sargs_len args : ∀ m vs m1 ds, sargs m args = Some (vs, m1, ds) → length vs = length args.
Proof.
  induction args as [|a args IH]; intros m vs m1 ds H; cbn [sargs] in H; [by injection H as <- _ _|].
  destruct (sarg m a) as [[v m2]|]; [|done]. destruct (sargs m2 args) as [[[vs' m3] ds']|] eqn:Hs; [|done]. injection H as <- <- <-. cbn [length]. by rewrite (IH _ _ _ _ Hs).
Qed.
Lemma st_new_run types : ∀ args m vs m1 ds n, sargs m (reverse args) = Some (vs, m1, ds) → length args = length types →
  st_new types args (World m n) = finish (reverse vs) n ds m1.
Proof.
  induction types as [|t types IH]; intros args m vs m1 ds n H Hl.
  - destruct args; [|done]. cbn [reverse] in H. by injection H as <- <- <-.
  - destruct args as [|a args]; [done|]. cbn [st_new]. rewrite reverse_cons, sargs_app in H.
    destruct (sargs m (reverse args)) as [[[vs1 m2] ds1]|] eqn:Hs; [|done]. cbn [sargs] in H.
    destruct (sarg m2 a) as [[v m3]|] eqn:Ha; [|done]. injection H as <- <- <-. rewrite app_nil_r.
    eapply bind_finish; [apply (IH args m _ _ _ n Hs); by injection Hl|]. intros n'. rewrite reverse_app. cbn [app].
    eapply bind_finish_r; [by apply new_value_run|done].
Qed.

(** ** Recursion over the components *)
Lemma st_get_run types : ∀ i x d w, i < length types → st_get types i (x, d) w = Ok (x, d + i) w.
Proof.
  induction types as [|t types IH]; intros i x d w Hi; cbn [length] in Hi; [lia|]. destruct i as [|i]; cbn [st_get]; apply noexcept_ok.
  - by rewrite Nat.add_0_r.
  - unfold base. cbn [fst snd]. rewrite IH by lia. do 2 f_equal. lia.
Qed.
Lemma st_copy_run types : ∀ m n y d l, m !! y = Some l → d + length types = length l →
  st_copy types (y, d) (World m n) = finish (drop d l) n (replicate (length types) m) m.
Proof.
  induction types as [|t types IH]; intros m n y d l Hy Hd; cbn [length] in Hd.
  - cbn. by rewrite drop_ge by lia.
  - cbn [st_copy length]. destruct (lookup_lt_is_Some_2 l d) as [v Hv]; [lia|]. rewrite (drop_S _ _ _ Hv).
    replace (replicate (S (length types)) m) with (replicate (length types) m ++ [m]) by (rewrite <-replicate_S_end; done).
    unfold base. cbn [fst snd]. eapply bind_finish; [apply (IH m n y (S d) l Hy); lia|]. intros n'.
    eapply bind_finish_r; [apply (new_value_run _ _ (ACopy (RComp (y, d))))|done]. cbn [sarg sref]. unfold sget. cbn [fst snd]. by rewrite Hy, Hv.
Qed.
Lemma st_move_run types : ∀ m n y d l, m !! y = Some l → d + length types = length l →
  st_move types (y, d) (World m n) = finish (drop d l) n [] (<[y:=part d l (moved <$> l)]> m).
Proof.
  induction types as [|t types IH]; intros m n y d l Hy Hd; cbn [length] in Hd.
  - cbn. rewrite drop_ge by lia. assert (part d l (moved <$> l) = l) as ->; [|by rewrite insert_id].
    replace d with (length l) by lia. apply part_all. by rewrite fmap_length.
  - cbn [st_move]. destruct (lookup_lt_is_Some_2 l d) as [v Hv]; [lia|]. rewrite (drop_S _ _ _ Hv). unfold base. cbn [fst snd].
    assert (length l = length (moved <$> l)) as El by by rewrite fmap_length.
    eapply bind_ok_finish; [apply (IH m n y (S d) l Hy); lia|].
    eapply bind_ok_finish; [apply (new_value_run _ _ (AMove (RComp (y, d))))|done]. cbn [sarg]. unfold sget, sset. cbn [fst snd]. rewrite lookup_insert.
    rewrite part_lookup_lt by lia. rewrite Hv. rewrite insert_insert.
    by rewrite (part_down _ _ _ (moved v)) by (done || by rewrite list_lookup_fmap, Hv).
Qed.
(** the state if the copy assignment of component [k] throws *)
Definition damaged m (x : nat) (a b : list V) (k : nat) (p : V * V) : state := <[x:=take k a ++ torn p.1 p.2 :: drop (S k) b]> m.
Lemma st_copy_assign_run types : ∀ m n x y a b d, m !! x = Some a → m !! y = Some b → length a = length b → d + length types = length a →
  st_copy_assign types (x, d) (y, d) (World m n) =
    finish tt n (concat (cell (zip a b) (damaged m x a b) <$> reverse (seq d (length types)))) (<[x:=part d a b]> m).
Proof.
  induction types as [|t types IH]; intros m n x y a b d Hx Hy El Hd; cbn [length] in Hd.
  - cbn. assert (part d a b = a) as ->; [|by rewrite insert_id]. replace d with (length a) by lia. by apply part_all.
  - cbn [st_copy_assign length seq]. rewrite reverse_cons, fmap_app, concat_app. cbn [fmap list_fmap concat]. rewrite app_nil_r. unfold base. cbn [fst snd].
    destruct (lookup_lt_is_Some_2 a d) as [u Hu]; [lia|]. destruct (lookup_lt_is_Some_2 b d) as [v Hv]; [lia|].
    eapply bind_finish; [apply (IH m n x y a b (S d) Hx Hy El); lia|]. intros n'.
    assert (cell (zip a b) (damaged m x a b) d = [damaged m x a b d (u, v)]) as ->.
    { unfold cell. assert (zip a b !! d = Some (u, v)) as -> by (apply lookup_zip_with_Some; by exists u, v). done. }
    unfold copy_assign. eapply bind_ok_finish.
    { apply rd_ref_run. cbn [sref]. unfold sget. cbn [fst snd]. destruct (decide (x = y)) as [<-|Hxy].
      - rewrite lookup_insert. assert (a = b) as -> by congruence. rewrite part_same. exact Hv.
      - rewrite lookup_insert_ne by done. rewrite Hy. exact Hv. }
    eapply bind_ok_finish; [eapply rd_run; [by rewrite lookup_insert|]; rewrite part_lookup_lt by lia; exact Hu|].
    eapply bind_finish_r.
    + apply may_throw_run. intros n''. erewrite wr_run; [|by rewrite lookup_insert|rewrite part_len; lia]. rewrite insert_insert. unfold damaged. cbn [fst snd].
      by rewrite part_insert by lia.
    + intros n''. erewrite wr_run; [|by rewrite lookup_insert|rewrite part_len; lia]. by rewrite (part_down _ _ _ v), insert_insert by done.
Qed.
Lemma st_move_assign_run types : ∀ m n x y a b d, x ≠ y → m !! x = Some a → m !! y = Some b → length a = length b → d + length types = length a →
  st_move_assign types (x, d) (y, d) (World m n) = Ok tt (World (<[x:=part d a b]> (<[y:=part d b (moved <$> b)]> m)) n).
Proof.
  induction types as [|t types IH]; intros m n x y a b d Hxy Hx Hy El Hd; cbn [length] in Hd; assert (length b = length (moved <$> b)) as Em by by rewrite fmap_length.
  - cbn. replace (part d a b) with a by (symmetry; replace d with (length a) by lia; by apply part_all).
    replace (part d b (moved <$> b)) with b by (symmetry; replace d with (length b) by lia; by apply part_all).
    by rewrite (insert_id m y), (insert_id m x).
  - cbn [st_move_assign]. unfold base. cbn [fst snd]. destruct (lookup_lt_is_Some_2 a d) as [u Hu]; [lia|]. destruct (lookup_lt_is_Some_2 b d) as [v Hv]; [lia|].
    unfold bind at 1. rewrite (IH m n x y a b (S d)) by (done || lia). unfold move_assign, bind at 1.
    erewrite rd_run; [|by rewrite lookup_insert_ne, lookup_insert by done|rewrite part_lookup_lt by lia; exact Hv].
    rewrite decide_False by congruence. unfold bind at 1. erewrite rd_run; [|by rewrite lookup_insert|rewrite part_lookup_lt by lia; exact Hu].
    unfold bind. erewrite wr_run; [|by rewrite lookup_insert|rewrite part_len; lia]. rewrite insert_insert, (part_down _ _ _ v) by done.
    erewrite wr_run; [|by rewrite lookup_insert_ne, lookup_insert by done|rewrite part_len; lia].
    rewrite (part_down _ _ _ (moved v)) by (done || by rewrite list_lookup_fmap, Hv). rewrite (insert_commute _ y x) by done. by rewrite insert_insert.
Qed.
Lemma st_self_move_run types : ∀ m n x a d, m !! x = Some a → d + length types = length a →
  st_move_assign types (x, d) (x, d) (World m n) = Ok tt (World (<[x:=part d a (selfmove <$> a)]> m) n).
Proof.
  induction types as [|t types IH]; intros m n x a d Hx Hd; cbn [length] in Hd; assert (length a = length (selfmove <$> a)) as Em by by rewrite fmap_length.
  - cbn. replace (part d a (selfmove <$> a)) with a by (symmetry; replace d with (length a) by lia; by apply part_all). by rewrite insert_id.
  - cbn [st_move_assign]. unfold base. cbn [fst snd]. destruct (lookup_lt_is_Some_2 a d) as [u Hu]; [lia|].
    unfold bind at 1. rewrite (IH m n x a (S d)) by (done || lia). unfold move_assign, bind.
    erewrite rd_run; [|by rewrite lookup_insert|rewrite part_lookup_lt by lia; exact Hu]. rewrite decide_True by done.
    erewrite wr_run; [|by rewrite lookup_insert|rewrite part_len; lia]. by rewrite insert_insert, (part_down _ _ _ (selfmove u)) by (done || by rewrite list_lookup_fmap, Hu).
Qed.
Lemma st_swap_run types : ∀ m n x y a b d, x ≠ y → m !! x = Some (part d b a) → m !! y = Some (part d a b) → length a = length b → d + length types = length a →
  st_swap types (x, d) (y, d) (World m n) = Ok tt (World (<[x:=b]> (<[y:=a]> m)) n).
Proof.
  induction types as [|t types IH]; intros m n x y a b d Hxy Hx Hy El Hd; cbn [length] in Hd; cbn [st_swap]; apply noexcept_ok.
  - replace (part d b a) with b in Hx by (symmetry; replace d with (length b) by lia; by apply part_all).
    replace (part d a b) with a in Hy by (symmetry; replace d with (length a) by lia; by apply part_all).
    by rewrite (insert_id m y), (insert_id m x).
  - destruct (lookup_lt_is_Some_2 a d) as [u Hu]; [lia|]. destruct (lookup_lt_is_Some_2 b d) as [v Hv]; [lia|]. unfold bind.
    erewrite rd_run; [|done|rewrite part_lookup_ge by lia; exact Hu]. erewrite rd_run; [|done|rewrite part_lookup_ge by lia; exact Hv].
    erewrite wr_run; [|done|rewrite part_len; lia]. erewrite wr_run; [|by rewrite lookup_insert_ne by done|rewrite part_len; lia].
    rewrite (part_up _ _ _ v), (part_up _ _ _ u) by done. unfold base. cbn [fst snd].
    rewrite (IH _ n x y a b (S d)) by (done || lia || by rewrite ?lookup_insert, ?lookup_insert_ne, ?lookup_insert by done).
    do 2 f_equal. rewrite insert_insert. rewrite (insert_commute _ y x) by done. by rewrite insert_insert.
Qed.
Lemma st_self_swap_run types : ∀ m n x a d, m !! x = Some a → d + length types = length a →
  st_swap types (x, d) (x, d) (World m n) = Ok tt (World m n).
Proof.
  induction types as [|t types IH]; intros m n x a d Hx Hd; cbn [length] in Hd; cbn [st_swap]; apply noexcept_ok; [done|].
  destruct (lookup_lt_is_Some_2 a d) as [u Hu]; [lia|]. unfold bind. rewrite !(rd_run m n x d a u) by done.
  rewrite (wr_run m n x d a u) by (done || lia). rewrite (list_insert_id _ _ _ Hu), insert_id by done.
  rewrite (wr_run m n x d a u) by (done || lia). rewrite (list_insert_id _ _ _ Hu), insert_id by done. unfold base. cbn [fst snd].
  apply (IH m n x a (S d) Hx). lia.
Qed.

(** ** Calls *)
Definition agrees (f : M world tobs) m n (o : outcome) : Prop :=
  match o with
  | Bad => True
  | Done r m' ds => f (World m n) = finish r n ds m'
  end.
Lemma texec_run o m n : wf m → agrees (texec o) m n (sstep o m).
Proof.
  intros Hw. destruct o as [x args|x y|x y|x|x y|x y|x y|i x|s|s v]; cbn [sstep texec].
  - destruct (m !! x) eqn:Hx; [done|]. destruct (sargs m (reverse args)) as [[[vs m1] ds]|] eqn:Hs; [|done]. case_decide as Hl; [|done]. cbn [agrees].
    eapply bind_finish_r; [|done]. unfold tup_new. rewrite Hl, Nat.eqb_refl. cbn [orb]. eapply bind_finish_r; [by apply st_new_run|done].
  - destruct (m !! x) eqn:Hx; [done|]. destruct (m !! y) as [l|] eqn:Hy; [|done]. cbn [agrees]. pose proof (Hw _ _ Hy) as El.
    eapply bind_finish_r; [|done]. unfold tup_new_copy. eapply bind_ok_finish; [by eapply alive_run|]. eapply bind_finish_r; [by apply (st_copy_run Types m n y 0 l)|done].
  - destruct (m !! x) eqn:Hx; [done|]. destruct (m !! y) as [l|] eqn:Hy; [|done]. cbn [agrees]. pose proof (Hw _ _ Hy) as El.
    eapply bind_finish_r; [|done]. unfold tup_new_move. apply noexcept_finish. eapply bind_ok_finish; [by eapply alive_run|].
    eapply bind_finish_r; [by apply (st_move_run Types m n y 0 l)|done].
  - destruct (m !! x) eqn:Hx; [|done]. cbn [agrees]. unfold tup_destroy, bind. by rewrite (alive_run _ _ _ _ Hx).
  - destruct (m !! x) as [a|] eqn:Hx; [|done]. destruct (m !! y) as [b|] eqn:Hy; [|done]. cbn [agrees]. pose proof (Hw _ _ Hx). pose proof (Hw _ _ Hy).
    eapply bind_finish_r; [|done]. unfold tup_copy_assign. eapply bind_ok_finish; [by eapply alive_run|]. eapply bind_ok_finish; [by eapply alive_run|].
    assert (reverse (imap (damaged m x a b) (zip a b)) = concat (cell (zip a b) (damaged m x a b) <$> reverse (seq 0 N))) as E.
    { rewrite <-(cells (zip a b) (damaged m x a b)), cells_reverse. by replace (length (zip a b)) with N by (rewrite zip_with_length; lia). }
    unfold storage. rewrite (st_copy_assign_run Types m n x y a b 0) by (done || lia). rewrite <-E. done.
  - destruct (m !! x) as [a|] eqn:Hx; [|done]. destruct (m !! y) as [b|] eqn:Hy; [|done]. pose proof (Hw _ _ Hx). pose proof (Hw _ _ Hy).
    case_decide as Hxy; cbn [agrees]; (eapply bind_finish_r; [|done]); unfold tup_move_assign; apply noexcept_finish;
      (eapply bind_ok_finish; [by eapply alive_run|]); (eapply bind_ok_finish; [by eapply alive_run|]).
    + subst y. apply (st_self_move_run Types m n x a 0); (done || lia).
    + apply (st_move_assign_run Types m n x y a b 0); (done || lia).
  - destruct (m !! x) as [a|] eqn:Hx; [|done]. destruct (m !! y) as [b|] eqn:Hy; [|done]. pose proof (Hw _ _ Hx). pose proof (Hw _ _ Hy).
    cbn [agrees]. eapply bind_finish_r; [|done]. unfold tup_swap. apply noexcept_finish.
    eapply bind_ok_finish; [by eapply alive_run|]. eapply bind_ok_finish; [by eapply alive_run|]. destruct (decide (x = y)) as [<-|Hxy].
    + assert (a = b) as <- by congruence. rewrite insert_insert, insert_id by done. apply (st_self_swap_run Types m n x a 0); (done || lia).
    + apply (st_swap_run Types m n x y a b 0); (done || lia).
  - destruct (m !! x) as [a|] eqn:Hx; [|done]. case_decide as Hi; [|done]. cbn [agrees]. eapply bind_ok_finish; [|done]. apply noexcept_ok.
    unfold bind. rewrite (alive_run _ _ _ _ Hx). by apply (st_get_run Types i x 0).
  - destruct (sget m s) as [v|] eqn:Hr; [|done]. cbn [agrees]. eapply bind_ok_finish; [by apply sget_run|done].
  - destruct (sset m s v) as [m1|] eqn:Hs; [|done]. cbn [agrees]. unfold bind. by rewrite (sset_run _ _ _ _ _ Hs).
Qed.

(** ** Histories *)
Lemma wf_insert m x l : wf m → length l = N → wf (<[x:=l]> m).
Proof. intros H Hl y l'. destruct (decide (x = y)) as [<-|?]; [rewrite lookup_insert; by intros [= <-]|rewrite lookup_insert_ne by done; apply H]. Qed.
Lemma wf_delete m x : wf m → wf (delete x m).
Proof. intros H y l' [_ Hy]%lookup_delete_Some. by apply (H y). Qed.
Lemma sset_wf m s v m1 : wf m → sset m s v = Some m1 → wf m1.
Proof.
  intros H. unfold sset. destruct (m !! s.1) as [l|] eqn:Hx; [|done]. destruct (l !! s.2); [|done]. intros [= <-]. apply wf_insert; [done|]. rewrite insert_length. by apply (H s.1).
Qed.
Lemma sarg_wf m a v m1 : wf m → sarg m a = Some (v, m1) → wf m1.
Proof.
  intros H. destruct a as [r|[u|p]]; cbn [sarg].
  - destruct (sref m r); [|done]. by intros [= <- <-].
  - by intros [= <- <-].
  - destruct (sget m p) as [u|]; [|done]. destruct (sset m p (moved u)) as [m2|] eqn:Hs; [|done]. intros [= <- <-]. by eapply sset_wf.
Qed.
Lemma sargs_wf args : ∀ m vs m1 ds, wf m → sargs m args = Some (vs, m1, ds) → wf m1 ∧ Forall wf ds.
Proof.
  induction args as [|a args IH]; intros m vs m1 ds Hw H; cbn [sargs] in H; [by injection H as _ <- <-|].
  destruct (sarg m a) as [[v m2]|] eqn:Ha; [|done]. destruct (sargs m2 args) as [[[vs' m3] ds']|] eqn:Hs; [|done]. injection H as <- <- <-.
  destruct (IH _ _ _ _ (sarg_wf _ _ _ _ Hw Ha) Hs) as [? ?]. split; [done|]. apply Forall_app. split; [|done]. destruct a; [by apply Forall_singleton|apply Forall_nil_2].
Qed.
Lemma sstep_wf o m : wf m → match sstep o m with Done _ m' ds => wf m' ∧ Forall wf ds | Bad => True end.
Proof.
  intros Hw. destruct o as [x args|x y|x y|x|x y|x y|x y|i x|s|s v]; cbn [sstep].
  - destruct (m !! x); [done|]. destruct (sargs m (reverse args)) as [[[vs m1] ds]|] eqn:Hs; [|done]. case_decide as Hl; [|done].
    destruct (sargs_wf _ _ _ _ _ Hw Hs). split; [|done]. apply wf_insert; [done|]. by rewrite reverse_length, (sargs_len _ _ _ _ _ Hs), reverse_length.
  - destruct (m !! x); [done|]. destruct (m !! y) as [l|] eqn:Hy; [|done]. split; [apply wf_insert; [done|by apply (Hw y)]|by apply Forall_replicate].
  - destruct (m !! x); [done|]. destruct (m !! y) as [l|] eqn:Hy; [|done]. split; [|by apply Forall_nil_2].
    apply wf_insert; [apply wf_insert; [done|rewrite fmap_length]|]; by apply (Hw y).
  - destruct (m !! x); [|done]. split; [by apply wf_delete|by apply Forall_nil_2].
  - destruct (m !! x) as [a|] eqn:Hx; [|done]. destruct (m !! y) as [b|] eqn:Hy; [|done]. pose proof (Hw _ _ Hx) as Ha. pose proof (Hw _ _ Hy) as Hb.
    split; [by apply wf_insert|]. apply Forall_reverse. apply Forall_lookup. intros k d Hd. rewrite list_lookup_imap in Hd.
    destruct (zip a b !! k) as [p|] eqn:Hp; [|done]. injection Hd as <-. apply wf_insert; [done|].
    apply lookup_lt_Some in Hp. rewrite zip_with_length in Hp. rewrite app_length, take_length. cbn [length]. rewrite drop_length. lia.
  - destruct (m !! x) as [a|] eqn:Hx; [|done]. destruct (m !! y) as [b|] eqn:Hy; [|done]. case_decide; (split; [|by apply Forall_nil_2]).
    + apply wf_insert; [done|]. rewrite fmap_length. by apply (Hw x).
    + apply wf_insert; [apply wf_insert; [done|rewrite fmap_length]|]; by apply (Hw y).
  - destruct (m !! x) as [a|] eqn:Hx; [|done]. destruct (m !! y) as [b|] eqn:Hy; [|done]. split; [|by apply Forall_nil_2].
    apply wf_insert; [apply wf_insert; [done|]|]; [by apply (Hw x)|by apply (Hw y)].
  - destruct (m !! x); [|done]. by case_decide.
  - by destruct (sget m s).
  - destruct (sset m s v) as [m1|] eqn:Hs; [|done]. split; [by eapply sset_wf|by apply Forall_nil_2].
Qed.
Lemma settle_wf ds n d n' : Forall wf ds → settle n ds = (Some d, n') → wf d.
Proof.
  intros H. revert n. induction H as [|d0 ds Hd0 _ IH]; intros n; [done|]. cbn [settle]. destruct (fails n); [by intros [= <- _]|apply IH].
Qed.
Lemma trun_run os : ∀ m n rs m' n', wf m → srun os m n = Some (rs, m', n') → trun os (World m n) = Finished rs (World m' n') ∧ wf m'.
Proof.
  induction os as [|o os IH]; intros m n rs m' n' Hw H; cbn [srun trun] in *.
  - by injection H as <- <- <-.
  - pose proof (texec_run o m n Hw) as Ho. pose proof (sstep_wf o m Hw) as Hwf. destruct (sstep o m) as [|r m1 ds]; [done|]. destruct Hwf as [Hm1 Hds]. cbn [agrees] in Ho.
    rewrite Ho. unfold finish. destruct (settle n ds) as [[d|] n1] eqn:Es.
    + destruct (srun os d n1) as [[[rs1 m2] n2]|] eqn:E; [|done]. injection H as <- <- <-. destruct (IH _ _ _ _ _ (settle_wf _ _ _ _ Hds Es) E) as [-> ?]. done.
    + destruct (srun os m1 n1) as [[[rs1 m2] n2]|] eqn:E; [|done]. injection H as <- <- <-. destruct (IH _ _ _ _ _ Hm1 E) as [-> ?]. done.
Qed.
Lemma wf_empty : wf ∅.
Proof. intros x l. by rewrite lookup_empty. Qed.
(** the states that histories inside the contracts lead to *)
Definition reachable (w : world) m : Prop := ∃ os rs rs' n, srun os ∅ 0 = Some (rs, m, n) ∧ trun os init_world = Finished rs' w.

(** ** Comparison *)
Section compare.
Context (t_lt t_eq : K → V → V → bool).
Lemma types_drop d t types : drop d Types = t :: types → Types !! d = Some t ∧ drop (S d) Types = types.
Proof.
  intros E. assert (Types !! d = Some t) as Ht by (rewrite <-(Nat.add_0_r d), <-lookup_drop, E; done).
  split; [done|]. rewrite (drop_S _ _ _ Ht) in E. by injection E.
Qed.
Lemma st_equal_run types : ∀ m n x y a b d, m !! x = Some a → m !! y = Some b → length a = N → length b = N → drop d Types = types → d ≤ N →
  ∃ r, st_equal t_eq types (x, d) (y, d) (World m n) = Ok r (World m n) ∧
    (r = true ↔ ∀ k u v, d ≤ k → a !! k = Some u → b !! k = Some v → equal_at t_eq k u v).
Proof.
  induction types as [|t types IH]; intros m n x y a b d Hx Hy Ha Hb Hd Hle.
  - assert (N ≤ d) as Hnd by (apply (f_equal length) in Hd; rewrite drop_length in Hd; cbn in Hd; lia).
    exists true. split; [done|]. split; [|done]. intros _ k u v Hk Hu _. apply lookup_lt_Some in Hu. lia.
  - pose proof (types_drop _ _ _ Hd) as [Ht Hd']. pose proof (lookup_lt_Some _ _ _ Ht).
    destruct (lookup_lt_is_Some_2 a d) as [u Hu]; [lia|]. destruct (lookup_lt_is_Some_2 b d) as [v Hv]; [lia|].
    assert (∀ f : M world bool, noexcept (a <- rd (x, d) ;; b <- rd (y, d) ;; if t_eq t a b then f else ret false) (World m n) =
      noexcept (if t_eq t u v then f else ret false) (World m n)) as E.
    { intros f. unfold noexcept, bind. by rewrite (rd_run _ _ _ _ _ _ Hx Hu), (rd_run _ _ _ _ _ _ Hy Hv). }
    cbn [st_equal]. rewrite E. destruct (t_eq t u v) eqn:Heq.
    + destruct (IH m n x y a b (S d) Hx Hy Ha Hb Hd' ltac:(lia)) as (r & Hr & Hs). exists r. split; [by apply noexcept_ok|]. rewrite Hs. split.
      * intros Hall k u' v' Hk Hu' Hv'. destruct (decide (k = d)) as [->|]; [|apply Hall; (done || lia)].
        exists t. rewrite Hu in Hu'. rewrite Hv in Hv'. by simplify_eq.
      * intros Hall k u' v' Hk. apply Hall. lia.
    + exists false. split; [done|]. split; [done|]. intros Hall. destruct (Hall d u v ltac:(lia) Hu Hv) as (t' & Ht' & He). simplify_eq. congruence.
Qed.
Lemma st_less_run types : ∀ m n x y a b d, m !! x = Some a → m !! y = Some b → length a = N → length b = N → drop d Types = types → d ≤ N →
  ∃ r, st_less t_lt types (x, d) (y, d) (World m n) = Ok r (World m n) ∧
    (r = true ↔ ∃ k u v, d ≤ k ∧ a !! k = Some u ∧ b !! k = Some v ∧ less_at t_lt k u v ∧
       ∀ j u' v', d ≤ j < k → a !! j = Some u' → b !! j = Some v' → ¬ less_at t_lt j u' v' ∧ ¬ less_at t_lt j v' u').
Proof.
  induction types as [|t types IH]; intros m n x y a b d Hx Hy Ha Hb Hd Hle.
  - assert (N ≤ d) as Hnd by (apply (f_equal length) in Hd; rewrite drop_length in Hd; cbn in Hd; lia).
    exists false. split; [done|]. split; [done|]. intros (k & u & v & Hk & Hu & _). apply lookup_lt_Some in Hu. lia.
  - pose proof (types_drop _ _ _ Hd) as [Ht Hd']. pose proof (lookup_lt_Some _ _ _ Ht).
    destruct (lookup_lt_is_Some_2 a d) as [u Hu]; [lia|]. destruct (lookup_lt_is_Some_2 b d) as [v Hv]; [lia|].
    assert (∀ p q, less_at t_lt d p q ↔ t_lt t p q = true) as Hat.
    { intros p q. split; [intros (t' & Ht' & He); by simplify_eq|intros; by exists t]. }
    assert (∀ f : M world bool, noexcept (a <- rd (x, d) ;; b <- rd (y, d) ;; if t_lt t a b then ret true else
        c <- rd (y, d) ;; d <- rd (x, d) ;; if negb (t_lt t c d) then f else ret false) (World m n) =
      noexcept (if t_lt t u v then ret true else if negb (t_lt t v u) then f else ret false) (World m n)) as E.
    { intros f. unfold noexcept, bind. rewrite (rd_run _ _ _ _ _ _ Hx Hu), (rd_run _ _ _ _ _ _ Hy Hv). destruct (t_lt t u v); [done|].
      by rewrite (rd_run _ _ _ _ _ _ Hy Hv), (rd_run _ _ _ _ _ _ Hx Hu). }
    cbn [st_less]. rewrite E. destruct (t_lt t u v) eqn:Huv; [|destruct (t_lt t v u) eqn:Hvu; cbn [negb]].
    + exists true. split; [done|]. split; [|done]. intros _. exists d, u, v. split; [done|]. split; [done|]. split; [done|]. split; [by apply Hat|]. intros j u' v' Hj. lia.
    + exists false. split; [done|]. split; [done|]. intros (k & u1 & v1 & Hk & Hu1 & Hv1 & Hl & Hbefore).
      destruct (decide (k = d)) as [->|].
      * simplify_eq. apply Hat in Hl. congruence.
      * destruct (Hbefore d u v ltac:(lia) Hu Hv) as [_ Hn]. exfalso. by apply Hn, Hat.
    + destruct (IH m n x y a b (S d) Hx Hy Ha Hb Hd' ltac:(lia)) as (r & Hr & Hs). exists r. split; [by apply noexcept_ok|]. rewrite Hs. split.
      * intros (k & u1 & v1 & Hk & Hu1 & Hv1 & Hl & Hbefore). exists k, u1, v1. split; [lia|]. split; [done|]. split; [done|]. split; [done|].
        intros j u' v' Hj Hu' Hv'. destruct (decide (j = d)) as [->|]; [|apply Hbefore; (done || lia)]. simplify_eq. rewrite !Hat. by rewrite Huv, Hvu.
      * intros (k & u1 & v1 & Hk & Hu1 & Hv1 & Hl & Hbefore). exists k, u1, v1.
        destruct (decide (k = d)) as [->|]; [simplify_eq; apply Hat in Hl; congruence|]. split; [lia|]. split; [done|]. split; [done|]. split; [done|].
        intros j u' v' Hj. apply Hbefore. lia.
Qed.
Lemma tup_eq_run m n x y a b : wf m → m !! x = Some a → m !! y = Some b →
  ∃ r, tup_eq t_eq x y (World m n) = Ok r (World m n) ∧ (r = true ↔ tup_equal t_eq a b).
Proof.
  intros Hw Hx Hy. destruct (st_equal_run Types m n x y a b 0 Hx Hy (Hw _ _ Hx) (Hw _ _ Hy) eq_refl ltac:(lia)) as (r & Hr & Hs).
  exists r. split.
  - apply noexcept_ok. unfold bind. by rewrite (alive_run _ _ _ _ Hx), (alive_run _ _ _ _ Hy).
  - rewrite Hs. split; [intros H k u v; apply H; lia|intros H k u v _; apply H].
Qed.
Lemma tup_lt_run m n x y a b : wf m → m !! x = Some a → m !! y = Some b →
  ∃ r, tup_lt t_lt x y (World m n) = Ok r (World m n) ∧ (r = true ↔ tup_less t_lt a b).
Proof.
  intros Hw Hx Hy. destruct (st_less_run Types m n x y a b 0 Hx Hy (Hw _ _ Hx) (Hw _ _ Hy) eq_refl ltac:(lia)) as (r & Hr & Hs).
  exists r. split.
  - apply noexcept_ok. unfold bind. by rewrite (alive_run _ _ _ _ Hx), (alive_run _ _ _ _ Hy).
  - rewrite Hs. unfold tup_less. split.
    + intros (k & u & v & _ & Hu & Hv & Hl & Hb). exists k, u, v. split; [done|]. split; [done|]. split; [done|]. intros j u' v' Hj. apply Hb. lia.
    + intros (k & u & v & Hu & Hv & Hl & Hb). exists k, u, v. split; [lia|]. split; [done|]. split; [done|]. split; [done|]. intros j u' v' Hj. apply Hb. lia.
Qed.

(** *** One order: components paired with their numbers *)
Definition plt (p q : nat * V) : Prop := p.1 < q.1 ∨ (p.1 = q.1 ∧ less_at t_lt p.1 p.2 q.2).
Definition peq (p q : nat * V) : Prop := p.1 = q.1 ∧ (equal_at t_eq p.1 p.2 q.2 ∨ N ≤ p.1).
Definition numbered (a : list V) : list (nat * V) := imap pair a.
Lemma numbered_lookup a k : numbered a !! k = (λ v, (k, v)) <$> a !! k.
Proof. unfold numbered. by rewrite list_lookup_imap. Qed.
Definition ordered : Prop := ∀ t, t ∈ Types → total_order (λ u v, t_lt t u v = true) (λ u v, t_eq t u v = true).
Lemma plt_total : ordered → total_order plt peq.
Proof.
  intros T. assert (∀ k t, Types !! k = Some t → total_order (λ u v, t_lt t u v = true) (λ u v, t_eq t u v = true)) as T'.
  { intros k t Ht. apply T. by eapply elem_of_list_lookup_2. }
  split.
  - intros [k u] [H|[_ (t & Ht & H)]]; cbn in *; [lia|]. by apply (to_irrefl _ _ (T' _ _ Ht) u).
  - intros [i u] [j v] [k w] [H1|[E1 H1]] [H2|[E2 H2]]; cbn in *; [left; cbn; lia..|]. subst. right. split; [done|]. cbn.
    destruct H1 as (t & Ht & H1), H2 as (t' & Ht' & H2). simplify_eq. exists t. split; [done|]. by apply (to_trans _ _ (T' _ _ Ht) u v w).
  - intros [i u] [j v]. unfold plt, peq. cbn. split.
    + intros [-> [(t & Ht & He)|Hn]].
      * apply (to_equal _ _ (T' _ _ Ht)) in He as [H1 H2]. split; (intros [H|[_ (t' & Ht' & H)]]; [lia|simplify_eq; done]).
      * split; (intros [H|[_ (t' & Ht' & H)]]; [lia|apply lookup_lt_Some in Ht'; lia]).
    + intros [H1 H2]. assert (i = j) as -> by (destruct (Nat.lt_total i j) as [|[|]]; naive_solver). split; [done|].
      destruct (Types !! j) as [t|] eqn:Ht; [|right; by apply lookup_ge_None]. left. exists t. split; [done|]. apply (to_equal _ _ (T' _ _ Ht)).
      split; intros H; [apply H1|apply H2]; right; (split; [done|]; by exists t).
  - intros [i u] [j v] [k w] [E1 H1] [E2 H2]. cbn in *. subst. split; [done|]. cbn. destruct H1 as [(t & Ht & H1)|]; [|by right]. destruct H2 as [(t' & Ht' & H2)|]; [|by right].
    left. simplify_eq. exists t. split; [done|]. by apply (to_equal_trans _ _ (T' _ _ Ht) u v w).
Qed.
Lemma plt_dec (p q : nat * V) : {plt p q} + {¬ plt p q}.
Proof.
  destruct p as [i u], q as [j v]. unfold plt. cbn. destruct (decide (i < j)); [by left; left|]. destruct (decide (i = j)) as [->|]; [|right; naive_solver].
  destruct (Types !! j) as [t|] eqn:Ht; [|right; intros [|[_ (t' & Ht' & _)]]; [done|congruence]].
  destruct (t_lt t u v) eqn:E; [left; right; split; [done|by exists t]|right]. intros [|[_ (t' & Ht' & ?)]]; [done|]. rewrite Ht in Ht'. injection Ht' as <-. congruence.
Qed.
Lemma tup_less_lex a b : length a = length b → tup_less t_lt a b ↔ lex_less plt (numbered a) (numbered b).
Proof.
  intros El. assert (∀ k u v, plt (k, u) (k, v) ↔ less_at t_lt k u v) as Hp.
  { intros k u v. unfold plt. cbn. split; [intros [?|[_ ?]]; [lia|done]|by right]. }
  unfold tup_less, lex_less, same_upto. split.
  - intros (k & u & v & Hu & Hv & Hl & Hb). exists k. split.
    + intros j Hj. destruct (lookup_lt_is_Some_2 a j) as [u' Hu']; [apply lookup_lt_Some in Hu; lia|]. destruct (lookup_lt_is_Some_2 b j) as [v' Hv']; [apply lookup_lt_Some in Hv; lia|].
      exists (j, u'), (j, v'). rewrite !numbered_lookup, Hu', Hv', !Hp. split; [done|]. split; [done|]. by apply Hb.
    + right. exists (k, u), (k, v). rewrite !numbered_lookup, Hu, Hv, Hp. done.
  - intros (k & Hb & H). destruct H as [[Hn [q Hq]]|(p & q & Hp' & Hq & Hl)].
    { rewrite numbered_lookup in *. destruct (a !! k) eqn:E; [done|]. apply lookup_ge_None in E. destruct (b !! k) eqn:E'; [|done]. apply lookup_lt_Some in E'. lia. }
    rewrite numbered_lookup in *. destruct (a !! k) as [u|] eqn:Hu; [|done]. destruct (b !! k) as [v|] eqn:Hv; [|done]. injection Hp' as <-. injection Hq as <-.
    exists k, u, v. split; [done|]. split; [done|]. split; [by apply Hp|]. intros j u' v' Hj Hu' Hv'.
    destruct (Hb j Hj) as (p & q & Hp' & Hq & H1 & H2). rewrite numbered_lookup, Hu' in Hp'. rewrite numbered_lookup, Hv' in Hq. injection Hp' as <-. injection Hq as <-. by rewrite !Hp in *.
Qed.
Lemma tup_equal_lex a b : length a = N → length b = N → tup_equal t_eq a b ↔ all_equal peq (numbered a) (numbered b).
Proof.
  intros Ha Hb. unfold tup_equal, all_equal, numbered. rewrite !imap_length. fold (numbered a) (numbered b). split.
  - intros H. split; [lia|]. intros k p q Hp Hq. rewrite numbered_lookup in *. destruct (a !! k) as [u|] eqn:Hu; [|done]. destruct (b !! k) as [v|] eqn:Hv; [|done].
    injection Hp as <-. injection Hq as <-. split; [done|]. left. by apply H.
  - intros [_ H] k u v Hu Hv. destruct (H k (k, u) (k, v)) as [_ [He|Hn]]; [by rewrite numbered_lookup, Hu|by rewrite numbered_lookup, Hv|done|].
    apply lookup_lt_Some in Hu. cbn in Hn. lia.
Qed.
End compare.
End proofs.
