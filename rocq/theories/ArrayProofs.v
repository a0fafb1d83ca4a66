(** Calls on arrays do what the specification says. *)
From stdpp Require Import prelude gmap.
From Coq Require Import ZArith Lia.
From Verif Require Import Cpp IterModel IterSpec IterProofs ArrayModel ArraySpec.
Local Open Scope nat_scope.

(** ** Overwriting a list from the left *)
Definition mix {A} (k : nat) (b a : list A) : list A := take k b ++ drop k a.
Section mix.
Context {A : Type}.
Implicit Types a b : list A.
Lemma mix_0 b a : mix 0 b a = a.
Proof. done. Qed.
Lemma mix_all b a : length a = length b → mix (length b) b a = b.
Proof. intros E. unfold mix. rewrite firstn_all. rewrite drop_ge by lia. apply app_nil_r. Qed.
Lemma mix_len k b a : length a = length b → length (mix k b a) = length a.
Proof. intros E. unfold mix. rewrite app_length, take_length, drop_length. lia. Qed.
Lemma mix_lookup k b a : length a = length b → k < length a → mix k b a !! k = a !! k.
Proof.
  intros E Hk. unfold mix. rewrite lookup_app_r by (rewrite take_length; lia). rewrite take_length, lookup_drop. f_equal. lia.
Qed.
Lemma mix_insert k b a t : length a = length b → k < length a → <[k:=t]> (mix k b a) = take k b ++ t :: drop (S k) a.
Proof.
  intros E Hk. unfold mix. destruct (lookup_lt_is_Some_2 a k Hk) as [u Hu]. rewrite (drop_S _ _ _ Hu).
  rewrite insert_app_r_alt by (rewrite take_length; lia). rewrite take_length. by replace (k - k `min` length b) with 0 by lia.
Qed.
Lemma mix_step k b a v : length a = length b → b !! k = Some v → <[k:=v]> (mix k b a) = mix (S k) b a.
Proof.
  intros E Hv. pose proof (lookup_lt_Some _ _ _ Hv). rewrite mix_insert by lia. unfold mix. rewrite (take_S_r _ _ _ Hv). by rewrite <-app_assoc.
Qed.
End mix.
Lemma seq_lookups {A D} (l : list A) : ∀ (g : nat → A → D),
  concat ((λ k, match l !! k with Some p => [g k p] | None => [] end) <$> seq 0 (length l)) = imap g l.
Proof.
  induction l as [|a l IH]; intros g; [done|]. cbn [length seq fmap list_fmap concat imap]. cbn. f_equal.
  rewrite <-fmap_S_seq, <-list_fmap_compose. apply IH.
Qed.

Section proofs.
Context `{C : ArrCfg}.
Notation state := (gmap nat (list V)).
Implicit Types (m : state) (n : nat).

(** the size of an object is a std::ptrdiff_t *)
Definition cfg_ok : Prop := (1 ≤ wbits ∧ Z.of_nat Size < 2 ^ (wbits - 1))%Z.
Definition wf m : Prop := ∀ x l, m !! x = Some l → length l = Size.

Lemma mix_Size (a b : list V) : length a = Size → length b = Size → mix Size b a = b.
Proof. intros Ha Hb. rewrite <-Hb. apply mix_all. lia. Qed.

(** ** Operations that may throw *)
Definition finish {A} (r : A) (n : nat) (ds : list state) (m : state) : res world A :=
  match settle n ds with (None, n') => Ok r (World m n') | (Some d, n') => Exn ElementThrow (World d n') end.
Lemma finish_nil {A} (r : A) n m : finish r n [] m = Ok r (World m n).
Proof. done. Qed.
Lemma settle_app ds ds' n : settle n (ds ++ ds') = match settle n ds with (None, n') => settle n' ds' | r => r end.
Proof. revert n. induction ds as [|d ds IH]; intros n; [done|]. cbn [settle app]. by destruct (fails n). Qed.
Lemma bind_finish {A B} (f : M world A) (g : A → M world B) m n a b ds ds' m1 m2 :
  f (World m n) = finish a n ds m1 → (∀ n', g a (World m1 n') = finish b n' ds' m2) → bind f g (World m n) = finish b n (ds ++ ds') m2.
Proof.
  intros Hf Hg. unfold bind. rewrite Hf. unfold finish. rewrite settle_app. destruct (settle n ds) as [[d|] n']; [done|].
  rewrite Hg. unfold finish. done.
Qed.
Lemma bind_ok_finish {A B} (f : M world A) (g : A → M world B) m n a b ds' m1 m2 :
  f (World m n) = Ok a (World m1 n) → g a (World m1 n) = finish b n ds' m2 → bind f g (World m n) = finish b n ds' m2.
Proof. intros Hf Hg. unfold bind. by rewrite Hf. Qed.
Lemma bind_finish_r {A B} (f : M world A) (g : A → M world B) m n a b ds m1 m2 :
  f (World m n) = finish a n ds m1 → (∀ n', g a (World m1 n') = Ok b (World m2 n')) → bind f g (World m n) = finish b n ds m2.
Proof. intros Hf Hg. rewrite <-(app_nil_r ds). by eapply bind_finish. Qed.
Lemma may_throw_run c d m n : (∀ n', c (World m n') = Ok tt (World d n')) → may_throw c (World m n) = finish tt n [d] m.
Proof. intros Hc. unfold may_throw, finish. cbn [settle nops arrs]. destruct (fails n); [|done]. unfold bind. by rewrite Hc. Qed.

(** ** Elements *)
Lemma at_ptr_inv m p x i l v : at_ptr m p = Some (x, i, l, v) → p = At x (Z.of_nat i) ∧ m !! x = Some l ∧ l !! i = Some v.
Proof.
  destruct p as [|x' o]; [done|]. cbn [at_ptr]. case_decide as Ho; [|done]. destruct (m !! x') as [l'|] eqn:Hx; [|done].
  destruct (l' !! Z.to_nat o) eqn:Hi; [|done]. intros [= <- <- <- <-]. rewrite Z2Nat.id by lia. done.
Qed.
Lemma at_ptr_eq m x i l v : m !! x = Some l → l !! i = Some v → at_ptr m (At x (Z.of_nat i)) = Some (x, i, l, v).
Proof. intros Hx Hi. cbn [at_ptr]. rewrite decide_True by lia. by rewrite Hx, Nat2Z.id, Hi. Qed.
Lemma pread_run m n x i l v : m !! x = Some l → l !! i = Some v → pread (At x (Z.of_nat i)) (World m n) = Ok v (World m n).
Proof.
  intros Hx Hi. cbn [pread load array_arrays arrs]. rewrite Hx. rewrite (proj2 (Z.leb_le _ _)) by lia. by rewrite Nat2Z.id, Hi.
Qed.
Lemma pwrite_run m n x i l v : m !! x = Some l → i < length l → pwrite (At x (Z.of_nat i)) v (World m n) = Ok tt (World (<[x:=<[i:=v]> l]> m) n).
Proof.
  intros Hx Hi. cbn [pwrite store array_arrays arrs]. rewrite Hx. rewrite (proj2 (Z.leb_le _ _)), (proj2 (Z.ltb_lt _ _)) by lia. by rewrite Nat2Z.id.
Qed.
Lemma rd_ref_run m n r v : sref m r = Some v → rd_ref r (World m n) = Ok v (World m n).
Proof.
  destruct r as [u|p]; cbn [sref rd_ref]; [by intros [= ->]|]. destruct (at_ptr m p) as [[[[x i] l] u]|] eqn:E; [|done]. intros [= <-].
  apply at_ptr_inv in E as (-> & Hx & Hi). by eapply pread_run.
Qed.
Lemma set_ptr_run m n p v m1 : set_ptr m p v = Some m1 → pwrite p v (World m n) = Ok tt (World m1 n).
Proof.
  unfold set_ptr. destruct (at_ptr m p) as [[[[x i] l] u]|] eqn:E; [|done]. intros [= <-].
  apply at_ptr_inv in E as (-> & Hx & Hi). eapply pwrite_run; [done|]. by eapply lookup_lt_Some.
Qed.
Lemma new_value_run m n a v m1 : sarg m a = Some (v, m1) →
  new_value a (World m n) = finish v n (match a with ACopy _ => [m] | AMove _ => [] end) m1.
Proof.
  destruct a as [r|[u|p]]; cbn [sarg new_value].
  - destruct (sref m r) as [u|] eqn:Hr; [|done]. intros [= <- <-]. eapply bind_ok_finish; [by apply rd_ref_run|].
    eapply bind_finish_r; [by apply may_throw_run|done].
  - by intros [= <- <-].
  - destruct (sref m (RElem p)) as [u|] eqn:Hr; [|done]. destruct (set_ptr m p (moved u)) as [m2|] eqn:Hs; [|done]. intros [= <- <-].
    eapply bind_ok_finish; [by apply (rd_ref_run _ _ (RElem p))|]. unfold bind. by rewrite (set_ptr_run _ _ _ _ _ Hs).
Qed.
Lemma init_dflt_run m k : ∀ n, init_all [] k (World m n) = finish (replicate k dflt) n (replicate k m) m.
Proof.
  induction k as [|k IH]; intros n; [done|]. cbn [init_all replicate]. change (m :: replicate k m) with ([m] ++ replicate k m).
  eapply bind_finish; [by apply may_throw_run|]. intros n'. eapply bind_finish_r; [apply IH|done].
Qed.
Lemma init_run args : ∀ m vs m1 ds k n, sargs m args = Some (vs, m1, ds) → length args ≤ k →
  init_all args k (World m n) = finish (vs ++ replicate (k - length args) dflt) n (ds ++ replicate (k - length args) m1) m1.
Proof.
  induction args as [|a args IH]; intros m vs m1 ds k n H Hk; cbn [sargs] in H.
  - injection H as <- <- <-. cbn [length app]. rewrite Nat.sub_0_r. apply init_dflt_run.
  - destruct (sarg m a) as [[v m2]|] eqn:Ha; [|done]. destruct (sargs m2 args) as [[[vs' m3] ds']|] eqn:Hs; [|done].
    injection H as <- <- <-. cbn [length] in *. destruct k as [|k]; [lia|]. cbn [init_all]. rewrite <-app_assoc.
    replace (S k - S (length args)) with (k - length args) by lia.
    eapply bind_finish; [by apply new_value_run|]. intros n'. eapply bind_finish_r; [apply (IH m2 vs' m3 ds' k n' Hs); lia|done].
Qed.
Lemma sargs_len args : ∀ m vs m1 ds, sargs m args = Some (vs, m1, ds) → length vs = length args.
Proof.
  induction args as [|a args IH]; intros m vs m1 ds H; cbn [sargs] in H; [by injection H as <- _ _|].
  destruct (sarg m a) as [[v m2]|]; [|done]. destruct (sargs m2 args) as [[[vs' m3] ds']|] eqn:Hs; [|done]. injection H as <- <- <-. cbn [length]. by rewrite (IH _ _ _ _ Hs).
Qed.
Lemma set_ptr_wf m p v m1 : wf m → set_ptr m p v = Some m1 → wf m1.
Proof.
  intros H. unfold set_ptr. destruct (at_ptr m p) as [[[[x i] l] u]|] eqn:E; [|done]. intros [= <-]. apply at_ptr_inv in E as (_ & Hx & _).
  intros y l'. destruct (decide (x = y)) as [<-|?]; [|rewrite lookup_insert_ne by done; apply H]. rewrite lookup_insert. intros [= <-]. rewrite insert_length. by apply (H x).
Qed.
Lemma sarg_wf m a v m1 : wf m → sarg m a = Some (v, m1) → wf m1.
Proof.
  intros H. destruct a as [r|[u|p]]; cbn [sarg].
  - destruct (sref m r); [|done]. by intros [= <- <-].
  - by intros [= <- <-].
  - destruct (sref m (RElem p)) as [u|]; [|done]. destruct (set_ptr m p (moved u)) as [m2|] eqn:Hs; [|done]. intros [= <- <-]. by eapply set_ptr_wf.
Qed.
Lemma sargs_wf args : ∀ m vs m1 ds, wf m → sargs m args = Some (vs, m1, ds) → wf m1 ∧ Forall wf ds.
Proof.
  induction args as [|a args IH]; intros m vs m1 ds Hw H; cbn [sargs] in H; [by injection H as _ <- <-|].
  destruct (sarg m a) as [[v m2]|] eqn:Ha; [|done]. destruct (sargs m2 args) as [[[vs' m3] ds']|] eqn:Hs; [|done]. injection H as <- <- <-.
  destruct (IH _ _ _ _ (sarg_wf _ _ _ _ Hw Ha) Hs) as [? ?]. split; [done|]. apply Forall_app. split; [|done]. destruct a; [by apply Forall_singleton|apply Forall_nil_2].
Qed.
Lemma wf_insert m x l : wf m → length l = Size → wf (<[x:=l]> m).
Proof. intros H Hl y l'. destruct (decide (x = y)) as [<-|?]; [rewrite lookup_insert; by intros [= <-]|rewrite lookup_insert_ne by done; apply H]. Qed.
Lemma wf_delete m x : wf m → wf (delete x m).
Proof. intros H y l' [_ Hy]%lookup_delete_Some. by apply (H y). Qed.

(** ** All elements of another array *)
Lemma copies_run m y l : m !! y = Some l → ∀ k j, j + k = length l →
  sargs m (ACopy <$> ((λ i, RElem (At y (Z.of_nat i))) <$> seq j k)) = Some (drop j l, m, replicate k m).
Proof.
  intros Hy. induction k as [|k IH]; intros j Hj.
  - cbn. by rewrite drop_ge by lia.
  - destruct (lookup_lt_is_Some_2 l j) as [v Hv]; [lia|]. cbn [seq fmap list_fmap sargs sarg sref]. rewrite (at_ptr_eq _ _ _ _ _ Hy Hv).
    cbn [fmap option_fmap option_map snd]. rewrite IH by lia. by rewrite (drop_S _ _ _ Hv).
Qed.
Lemma moves_run m y l : ∀ k j, j + k = length l →
  sargs (<[y:=mix j (moved <$> l) l]> m) (AMove <$> ((λ i, RElem (At y (Z.of_nat i))) <$> seq j k)) = Some (drop j l, <[y:=moved <$> l]> m, []).
Proof.
  assert (length l = length (moved <$> l)) as El by by rewrite fmap_length.
  induction k as [|k IH]; intros j Hj.
  - cbn [seq fmap list_fmap sargs]. rewrite Nat.add_0_r in Hj. subst j.
    assert (mix (length l) (moved <$> l) l = moved <$> l) as -> by (rewrite El; by apply mix_all). by rewrite drop_ge by lia.
  - destruct (lookup_lt_is_Some_2 l j) as [v Hv]; [lia|]. cbn [seq fmap list_fmap sargs sarg sref].
    assert (at_ptr (<[y:=mix j (moved <$> l) l]> m) (At y (Z.of_nat j)) = Some (y, j, mix j (moved <$> l) l, v)) as Ha.
    { apply at_ptr_eq; [by rewrite lookup_insert|]. rewrite mix_lookup by (done || lia). done. }
    unfold set_ptr. rewrite Ha. cbn [fmap option_fmap option_map snd]. rewrite insert_insert.
    rewrite (mix_step _ _ _ (moved v)) by (done || by rewrite list_lookup_fmap, Hv). cbn [fst snd]. unfold fmap in IH. rewrite IH by lia. by rewrite (drop_S _ _ _ Hv).
Qed.

(** ** Loops over the elements of array [x] *)
Lemma deref_run m n x i l : m !! x = Some l → i < length l → it_deref (At x (Z.of_nat i)) (World m n) = Ok (At x (Z.of_nat i)) (World m n).
Proof.
  intros Hx Hi. apply noexcept_ok. unfold pderef. cbn [extent array_arrays arrs]. rewrite Hx. cbn.
  by rewrite (proj2 (Z.leb_le _ _)), (proj2 (Z.ltb_lt _ _)) by lia.
Qed.
Lemma inc_run m n x i l : m !! x = Some l → i < length l → it_inc (At x (Z.of_nat i)) (World m n) = Ok (At x (Z.of_nat (S i))) (World m n).
Proof.
  intros Hx Hi. apply noexcept_ok. unfold padd. cbn [extent array_arrays arrs]. rewrite Hx. cbn.
  rewrite (proj2 (Z.leb_le _ _)), (proj2 (Z.leb_le _ _)) by lia. cbn. do 2 f_equal. lia.
Qed.
Lemma each_run x N (f : pointer nat → nat → M world unit) (st : nat → state) (dm : nat → list state) :
  (∀ k n, k < N → f (At x (Z.of_nat k)) k (World (st k) n) = finish tt n (dm k) (st (S k))) →
  (∀ k, k ≤ N → ∃ l, st k !! x = Some l ∧ length l = N) →
  ∀ j k n, j + k = N → each k (At x (Z.of_nat j)) j f (World (st j) n) = finish tt n (concat (dm <$> seq j k)) (st N).
Proof.
  intros Hf Hl j k. revert j. induction k as [|k IH]; intros j n Hj.
  - cbn. by replace j with N by lia.
  - cbn [each seq fmap list_fmap concat]. destruct (Hl j ltac:(lia)) as (l & Hx & El). eapply bind_ok_finish; [eapply deref_run; [done|lia]|].
    eapply bind_finish; [apply Hf; lia|]. intros n'. destruct (Hl (S j) ltac:(lia)) as (l' & Hx' & El').
    eapply bind_ok_finish; [eapply inc_run; [done|lia]|]. apply IH. lia.
Qed.
(** from the start of an array, which may be a null pointer *)
Definition first_of (x : nat) : pointer nat := if decide (Size = 0) then Null else At x 0.
Lemma each_all x (f : pointer nat → nat → M world unit) (st : nat → state) (dm : nat → list state) n :
  (∀ k n, k < Size → f (At x (Z.of_nat k)) k (World (st k) n) = finish tt n (dm k) (st (S k))) →
  (∀ k, k ≤ Size → ∃ l, st k !! x = Some l ∧ length l = Size) →
  each Size (first_of x) 0 f (World (st 0) n) = finish tt n (concat (dm <$> seq 0 Size)) (st Size).
Proof.
  intros Hf Hl. unfold first_of. case_decide as E.
  - rewrite E. done.
  - by apply (each_run x Size f st dm Hf Hl 0 Size n).
Qed.
Lemma no_damage N : concat ((λ _ : nat, [] : list state) <$> seq 0 N) = [].
Proof. generalize 0. induction N as [|N IH]; intros j; [done|]. cbn. apply IH. Qed.

Lemma assign_run m n x a b (src : nat → ref) : m !! x = Some a → length a = Size → length b = Size →
  (∀ k v, b !! k = Some v → sref (<[x:=mix k b a]> m) (src k) = Some v) →
  each Size (first_of x) 0 (λ q k, copy_assign q (src k)) (World m n) =
    finish tt n (imap (λ k p, <[x:=take k b ++ torn p.1 p.2 :: drop (S k) a]> m) (zip a b)) (<[x:=b]> m).
Proof.
  intros Hx Ha Hb Hs.
  pose proof (each_all x (λ q k, copy_assign q (src k)) (λ k, <[x:=mix k b a]> m)
    (λ k, match zip a b !! k with Some p => [<[x:=take k b ++ torn p.1 p.2 :: drop (S k) a]> m] | None => [] end) n) as H.
  cbn beta in H. rewrite mix_0, insert_id in H by done. rewrite H.
  - replace Size with (length (zip a b)) at 1 by (rewrite zip_with_length; lia). rewrite (seq_lookups (zip a b) (λ k p, <[x:=take k b ++ torn p.1 p.2 :: drop (S k) a]> m)).
    by rewrite mix_Size by done.
  - intros k n' Hk. destruct (lookup_lt_is_Some_2 a k) as [u Hu]; [lia|]. destruct (lookup_lt_is_Some_2 b k) as [v Hv]; [lia|].
    assert (zip a b !! k = Some (u, v)) as -> by (apply lookup_zip_with_Some; by exists u, v). cbn [fst snd].
    assert (∀ t, <[k:=t]> (mix k b a) = take k b ++ t :: drop (S k) a) as Et by (intros t; apply mix_insert; lia).
    unfold copy_assign. eapply bind_ok_finish; [apply rd_ref_run; by apply Hs|].
    eapply bind_ok_finish; [eapply pread_run; [by rewrite lookup_insert|]; rewrite mix_lookup by lia; done|].
    eapply bind_finish_r.
    + apply may_throw_run. intros n''. erewrite pwrite_run; [|by rewrite lookup_insert|rewrite mix_len; lia]. by rewrite Et, insert_insert.
    + intros n''. erewrite pwrite_run; [|by rewrite lookup_insert|rewrite mix_len; lia]. by rewrite (mix_step _ _ _ v), insert_insert by (done || lia).
  - intros k Hk. exists (mix k b a). rewrite lookup_insert, mix_len by lia. done.
Qed.

(** ** Members *)
Lemma data_run m n x l : m !! x = Some l → arr_data x (World m n) = Ok (first_of x) (World m n).
Proof. intros Hx. apply noexcept_ok. unfold bind, get_arr. cbn [arrs]. by rewrite Hx. Qed.
Lemma size_eq : cfg_ok → arr_size = Z.of_nat Size.
Proof.
  intros [H1 H2]. unfold arr_size, to_size. apply Z.mod_small. split; [lia|]. replace wbits with (Z.succ (wbits - 1)) by lia. rewrite Z.pow_succ_r by lia. lia.
Qed.
Lemma range_run m n x l : m !! x = Some l → length l = Size → range_at (World m n) (first_of x) l.
Proof.
  intros Hx El. unfold first_of. case_decide as E; cbn [range_at].
  - destruct l; [done|]. cbn in El. lia.
  - split; [done|]. split.
    + exists (Z.of_nat (length l)). cbn [extent array_arrays arrs]. rewrite Hx. split; [done|lia].
    + intros i v Hi. cbn [load array_arrays arrs]. rewrite Hx. rewrite (proj2 (Z.leb_le _ _)) by lia. by rewrite Z.add_0_l, Nat2Z.id, Hi.
Qed.
Lemma end_run m n x l : cfg_ok → m !! x = Some l → length l = Size →
  arr_end x (World m n) = Ok (pos (first_of x) (Z.of_nat Size)) (World m n).
Proof.
  intros Hc Hx El. apply noexcept_ok. unfold bind, arr_begin. rewrite (noexcept_ok _ _ _ _ (data_run m n x l Hx)). rewrite size_eq by done.
  unfold to_diff. rewrite (proj2 (Z.ltb_lt _ _)) by apply Hc. pose proof (it_add_run (World m n) (first_of x) l 0 (Z.of_nat Size) (range_run m n x l Hx El)) as E.
  rewrite pos_0 in E. apply E; split; lia.
Qed.
Lemma distance_run m n x l : m !! x = Some l → length l = Size →
  distance (first_of x) (pos (first_of x) (Z.of_nat Size)) (World m n) = Ok Size (World m n).
Proof.
  intros Hx El. unfold distance, bind. pose proof (it_diff_run (World m n) (first_of x) l (Z.of_nat Size) 0 (range_run m n x l Hx El)) as E.
  rewrite pos_0 in E. rewrite E by (split; lia). unfold ret. by rewrite Z.sub_0_r, Nat2Z.id.
Qed.
Lemma index_run m n x l i : m !! x = Some l → length l = Size → (0 ≤ i < Z.of_nat Size)%Z →
  arr_index x i (World m n) = Ok (At x i) (World m n).
Proof.
  intros Hx El Hi. apply noexcept_ok. unfold bind. rewrite (data_run _ _ _ _ Hx). unfold first_of. rewrite decide_False by lia.
  unfold padd. cbn [extent array_arrays arrs]. rewrite Hx. cbn. rewrite (proj2 (Z.leb_le _ _)), (proj2 (Z.leb_le _ _)) by lia. cbn.
  unfold pderef. cbn [extent array_arrays arrs]. rewrite Hx. cbn. by rewrite (proj2 (Z.leb_le _ _)), (proj2 (Z.ltb_lt _ _)) by lia.
Qed.

(** ** Calls *)
Definition agrees (f : M world aobs) m n (o : outcome) : Prop :=
  match o with
  | Bad => True
  | Done r m' ds => f (World m n) = finish r n ds m'
  | Throws e => f (World m n) = Exn e (World m n)
  end.
Lemma sat_run (f : M world (pointer nat)) m n x i : wf m →
  (∀ l, m !! x = Some l → length l = Size → (0 ≤ i < Z.of_nat Size)%Z → f (World m n) = Ok (At x i) (World m n)) →
  agrees (p <- f ;; ret (OPtr p)) m n (sat m x i).
Proof.
  intros Hw Hf. unfold sat. destruct (m !! x) as [l|] eqn:Hx; [|done]. case_decide; [|done]. cbn [agrees]. unfold bind. by rewrite (Hf l), finish_nil by (done || by apply (Hw x)).
Qed.
Lemma noexcept_ok_finish {A} (f : M world A) m n r m' : f (World m n) = finish r n [] m' → noexcept f (World m n) = finish r n [] m'.
Proof. rewrite finish_nil. apply noexcept_ok. Qed.

Lemma aexec_run o m n : cfg_ok → wf m → agrees (aexec o) m n (sstep o m).
Proof.
  intros Hc Hw. pose proof (size_eq Hc) as Hsz.
  destruct o as [x args|x y|x y|x|x y|x y|x r|x y|x| | | |x|x|x i|x i|i x|p|p v]; cbn [sstep aexec].
  - destruct (m !! x) eqn:Hx; [done|]. destruct (sargs m args) as [[[vs m1] ds]|] eqn:Hs; [|done]. case_decide as Hl; [|done]. cbn [agrees].
    eapply bind_finish_r; [|done]. unfold arr_new. eapply bind_finish_r; [by apply init_run|]. done.
  - destruct (m !! x) eqn:Hx; [done|]. destruct (m !! y) as [l|] eqn:Hy; [|done]. cbn [agrees]. pose proof (Hw _ _ Hy) as El.
    eapply bind_finish_r; [|done]. unfold arr_new_copy. eapply bind_ok_finish; [unfold get_arr; cbn [arrs]; by rewrite Hy|].
    pose proof (copies_run m y l Hy Size 0 ltac:(lia)) as Hs. assert (length (ACopy <$> elements y) = Size) as Ea by by rewrite fmap_length; unfold elements; rewrite fmap_length, seq_length.
    pose proof (init_run _ _ _ _ _ Size n Hs (Nat.eq_le_incl _ _ Ea)) as H. unfold elements in Ea. rewrite Ea, Nat.sub_diag in H. cbn [replicate] in H. rewrite !app_nil_r in H.
    eapply bind_finish_r; [exact H|]. done.
  - destruct (m !! x) eqn:Hx; [done|]. destruct (m !! y) as [l|] eqn:Hy; [|done]. cbn [agrees]. pose proof (Hw _ _ Hy) as El.
    eapply bind_finish_r; [|done]. unfold arr_new_move. apply noexcept_ok_finish. eapply bind_ok_finish; [unfold get_arr; cbn [arrs]; by rewrite Hy|].
    pose proof (moves_run m y l Size 0 ltac:(lia)) as Hs. rewrite mix_0, insert_id in Hs by done.
    assert (length (AMove <$> elements y) = Size) as Ea by by rewrite fmap_length; unfold elements; rewrite fmap_length, seq_length.
    pose proof (init_run _ _ _ _ _ Size n Hs (Nat.eq_le_incl _ _ Ea)) as H. unfold elements in Ea. rewrite Ea, Nat.sub_diag in H. cbn [replicate] in H. rewrite !app_nil_r in H.
    eapply bind_finish_r; [exact H|]. done.
  - destruct (m !! x) eqn:Hx; [|done]. cbn [agrees]. unfold arr_destroy, bind, get_arr. cbn [arrs]. by rewrite Hx.
  - destruct (m !! x) as [a|] eqn:Hx; [|done]. destruct (m !! y) as [b|] eqn:Hy; [|done]. cbn [agrees sassign]. pose proof (Hw _ _ Hx). pose proof (Hw _ _ Hy).
    eapply bind_finish_r; [|done]. unfold arr_copy_assign. eapply bind_ok_finish; [by eapply data_run|]. eapply bind_ok_finish; [by eapply data_run|].
    apply (assign_run m n x a b (λ k, RElem (At y (Z.of_nat k)))); [done..|]. intros k v Hv. cbn [sref]. pose proof (lookup_lt_Some _ _ _ Hv).
    destruct (decide (x = y)) as [<-|Hxy].
    + assert (a = b) as -> by congruence. erewrite at_ptr_eq; [|by rewrite lookup_insert|by rewrite mix_lookup]. done.
    + erewrite at_ptr_eq; [|by rewrite lookup_insert_ne by done|done]. done.
  - destruct (m !! x) as [a|] eqn:Hx; [|done]. destruct (m !! y) as [b|] eqn:Hy; [|done]. pose proof (Hw _ _ Hx) as Ea. pose proof (Hw _ _ Hy) as Eb.
    case_decide as Hxy; [subst y|]; cbn [agrees].
    + assert (a = b) as <- by congruence. eapply bind_finish_r; [|done]. unfold arr_move_assign. apply noexcept_ok_finish.
      eapply bind_ok_finish; [by eapply data_run|]. eapply bind_ok_finish; [by eapply data_run|].
      pose proof (each_all x (λ q k, move_assign q (At x (Z.of_nat k))) (λ k, <[x:=mix k (selfmove <$> a) a]> m) (λ _, []) n) as H. cbn beta in H.
      rewrite mix_0, insert_id, no_damage in H by done. rewrite mix_Size in H by by rewrite ?fmap_length. apply H.
      * intros k n' Hk. destruct (lookup_lt_is_Some_2 a k) as [u Hu]; [lia|]. unfold move_assign.
        eapply bind_ok_finish; [eapply pread_run; [by rewrite lookup_insert|]; rewrite mix_lookup by (rewrite ?fmap_length; lia); done|].
        rewrite decide_True by done. erewrite pwrite_run; [|by rewrite lookup_insert|rewrite mix_len by (by rewrite fmap_length); lia].
        rewrite (mix_step _ _ _ (selfmove u)), insert_insert by (by rewrite ?fmap_length, ?list_lookup_fmap, ?Hu). done.
      * intros k Hk. exists (mix k (selfmove <$> a) a). rewrite lookup_insert, mix_len by by rewrite fmap_length. done.
    + eapply bind_finish_r; [|done]. unfold arr_move_assign. apply noexcept_ok_finish.
      eapply bind_ok_finish; [by eapply data_run|]. eapply bind_ok_finish; [by eapply data_run|].
      pose proof (each_all x (λ q k, move_assign q (At y (Z.of_nat k))) (λ k, <[x:=mix k b a]> (<[y:=mix k (moved <$> b) b]> m)) (λ _, []) n) as H. cbn beta in H.
      rewrite !mix_0, (insert_id m y), (insert_id m x), no_damage in H by done. rewrite !mix_Size in H by by rewrite ?fmap_length. apply H.
      * intros k n' Hk. destruct (lookup_lt_is_Some_2 a k) as [u Hu]; [lia|]. destruct (lookup_lt_is_Some_2 b k) as [v Hv]; [lia|]. unfold move_assign.
        eapply bind_ok_finish; [eapply pread_run; [by rewrite lookup_insert_ne, lookup_insert by done|]; rewrite mix_lookup by (rewrite ?fmap_length; lia); done|].
        rewrite decide_False by congruence. eapply bind_ok_finish; [eapply pread_run; [by rewrite lookup_insert|]; rewrite mix_lookup by lia; done|].
        eapply bind_ok_finish; [eapply pwrite_run; [by rewrite lookup_insert|rewrite mix_len by lia; lia]|].
        rewrite (mix_step _ _ _ v), insert_insert by (done || lia).
        erewrite pwrite_run; [|by rewrite lookup_insert_ne, lookup_insert by done|rewrite mix_len by (by rewrite fmap_length); lia].
        rewrite (mix_step _ _ _ (moved v)) by (by rewrite ?fmap_length, ?list_lookup_fmap, ?Hv). rewrite (insert_commute _ y x) by done. by rewrite insert_insert.
      * intros k Hk. exists (mix k b a). rewrite lookup_insert, mix_len by lia. done.
  - destruct (m !! x) as [a|] eqn:Hx; [|done]. destruct (sref m r) as [v|] eqn:Hr; [|done]. cbn [agrees sassign]. pose proof (Hw _ _ Hx) as Ea.
    eapply bind_finish_r; [|done]. unfold arr_fill. eapply bind_ok_finish; [apply noexcept_ok; by eapply data_run|]. eapply bind_ok_finish; [by eapply end_run|].
    eapply bind_ok_finish; [by eapply distance_run|]. apply (assign_run m n x a (replicate Size v) (λ _, r)); [done|done|by rewrite replicate_length|].
    intros k u Hu. apply lookup_replicate in Hu as [-> Hk]. destruct r as [v'|p]; [done|]. cbn [sref] in *.
    destruct (at_ptr m p) as [[[[z i] l] v']|] eqn:E; [|done]. injection Hr as ->. apply at_ptr_inv in E as (-> & Hz & Hi).
    destruct (decide (x = z)) as [<-|Hxz].
    + assert (l = a) as -> by congruence. assert (mix k (replicate Size v) a !! i = Some v) as Hm.
      { unfold mix. pose proof (lookup_lt_Some _ _ _ Hi). destruct (decide (i < k)).
        - rewrite lookup_app_l by (rewrite take_length, replicate_length; lia). rewrite lookup_take by done. apply lookup_replicate. split; [done|lia].
        - rewrite lookup_app_r by (rewrite take_length, replicate_length; lia). rewrite take_length, replicate_length, lookup_drop.
          rewrite <-Hi. f_equal. lia. }
      erewrite at_ptr_eq; [|by rewrite lookup_insert|exact Hm]. done.
    + erewrite at_ptr_eq; [|by rewrite lookup_insert_ne by done|done]. done.
  - destruct (m !! x) as [a|] eqn:Hx; [|done]. destruct (m !! y) as [b|] eqn:Hy; [|done]. pose proof (Hw _ _ Hx) as Ea. pose proof (Hw _ _ Hy) as Eb.
    case_decide as Hxy; [done|]. cbn [agrees]. eapply bind_finish_r; [|done]. unfold arr_swap. apply noexcept_ok_finish.
    eapply bind_ok_finish; [apply noexcept_ok; by eapply data_run|]. eapply bind_ok_finish; [by eapply end_run|]. eapply bind_ok_finish; [apply noexcept_ok; by eapply data_run|].
    unfold swap_ranges. eapply bind_ok_finish; [by eapply distance_run|].
    destruct (decide (Size = 0)) as [E0|E0].
    { rewrite E0 in *. cbn [Nat.eqb negb andb each]. destruct a; [|done]. destruct b; [|done]. by rewrite (insert_id m y), (insert_id m x). }
    assert (x ≠ y) as Hne by naive_solver. rewrite (proj2 (Nat.eqb_neq _ _)) by done. cbn [negb andb].
    rewrite bool_decide_eq_false_2 by (unfold first_of; rewrite !decide_False by done; congruence).
    set (f := λ (q : pointer nat) (k : nat), _).
    pose proof (each_all x f (λ k, <[x:=mix k b a]> (<[y:=mix k a b]> m)) (λ _, []) n) as H. cbn beta in H.
    rewrite !mix_0, (insert_id m y), (insert_id m x), no_damage in H by done. rewrite !mix_Size in H by done. apply H.
    + intros k n' Hk. destruct (lookup_lt_is_Some_2 a k) as [u Hu]; [lia|]. destruct (lookup_lt_is_Some_2 b k) as [v Hv]; [lia|]. subst f. cbn beta.
      eapply bind_ok_finish.
      { pose proof (range_run (<[x:=mix k b a]> (<[y:=mix k a b]> m)) n' y (mix k a b)) as Hra.
        assert (elem (mix k a b) (0 + Z.of_nat k) = Some v) as He.
        { unfold elem. rewrite decide_True by lia. rewrite Z.add_0_l, Nat2Z.id, mix_lookup by lia. done. }
        apply noexcept_ok. unfold bind. pose proof (it_add_run _ _ _ 0 (Z.of_nat k) (Hra ltac:(by rewrite lookup_insert_ne, lookup_insert by done) ltac:(rewrite mix_len; lia))) as Hadd.
        rewrite pos_0 in Hadd. rewrite Hadd by (split; rewrite ?mix_len; lia). eapply it_deref_run; [apply Hra; [by rewrite lookup_insert_ne, lookup_insert by done|rewrite mix_len; lia]|exact He]. }
      replace (pos (first_of y) (0 + Z.of_nat k)) with (At y (Z.of_nat k)) by (unfold first_of; by rewrite decide_False).
      eapply bind_ok_finish; [eapply pread_run; [by rewrite lookup_insert|]; rewrite mix_lookup by lia; done|].
      eapply bind_ok_finish; [eapply pread_run; [by rewrite lookup_insert_ne, lookup_insert by done|]; rewrite mix_lookup by lia; done|].
      eapply bind_ok_finish; [eapply pwrite_run; [by rewrite lookup_insert|rewrite mix_len by lia; lia]|].
      rewrite (mix_step _ _ _ v), insert_insert by (done || lia).
      erewrite pwrite_run; [|by rewrite lookup_insert_ne, lookup_insert by done|rewrite mix_len; lia].
      rewrite (mix_step _ _ _ u) by (done || lia). rewrite (insert_commute _ y x) by done. by rewrite insert_insert.
    + intros k Hk. exists (mix k b a). rewrite lookup_insert, mix_len by lia. done.
  - destruct (m !! x) as [l|] eqn:Hx; [|done]. cbn [agrees]. unfold bind. by rewrite (data_run _ _ _ _ Hx).
  - cbn [agrees]. by rewrite Hsz.
  - cbn [agrees]. unfold arr_empty. rewrite Hsz. unfold ret. rewrite finish_nil. do 2 f_equal. destruct (Z.eqb_spec (Z.of_nat Size) 0); symmetry; [apply bool_decide_eq_true|apply bool_decide_eq_false]; lia.
  - cbn [agrees]. unfold arr_max_size. change (to_size (Z.of_nat Size)) with arr_size. by rewrite Hsz.
  - apply sat_run; [done|]. intros l Hx El Hi. apply noexcept_ok. by eapply index_run.
  - apply sat_run; [done|]. intros l Hx El Hi. apply noexcept_ok. rewrite Hsz. unfold to_size. rewrite Z.mod_small; [by eapply index_run|].
    destruct Hc as [H1 H2]. split; [lia|]. replace wbits with (Z.succ (wbits - 1)) by lia. rewrite Z.pow_succ_r by lia. lia.
  - apply sat_run; [done|]. intros l Hx El Hi. by eapply index_run.
  - destruct (m !! x) as [l|] eqn:Hx; [|done]. case_decide as Hi.
    + cbn [agrees]. unfold bind, arr_at. rewrite Hsz. by rewrite (proj2 (Z.leb_le _ _)) by done.
    + apply sat_run; [done|]. intros l' Hx' El Hi'. unfold arr_at. rewrite Hsz. rewrite (proj2 (Z.leb_gt _ _)) by lia. by eapply index_run.
  - apply sat_run; [done|]. intros l Hx El Hi. apply noexcept_ok. rewrite (proj2 (Nat.ltb_lt _ _)) by lia. by eapply index_run.
  - destruct (sref m (RElem p)) as [v|] eqn:Hr; [|done]. cbn [agrees]. eapply bind_ok_finish; [exact (rd_ref_run _ _ (RElem p) _ Hr)|done].
  - destruct (set_ptr m p v) as [m1|] eqn:Hs; [|done]. cbn [agrees]. unfold bind. by rewrite (set_ptr_run _ _ _ _ _ Hs).
Qed.

(** ** Histories *)
Lemma imap_Forall {A} (P : state → Prop) (g : nat → A → state) (l : list A) :
  (∀ k a, l !! k = Some a → P (g k a)) → Forall P (imap g l).
Proof.
  intros H. apply Forall_lookup. intros k d Hd. rewrite list_lookup_imap in Hd. destruct (l !! k) as [a|] eqn:E; [|done].
  injection Hd as <-. by apply H.
Qed.
Lemma sassign_wf m x a b : wf m → length a = Size → length b = Size →
  match sassign m x a b with Done _ m' ds => wf m' ∧ Forall wf ds | _ => True end.
Proof.
  intros Hw Ha Hb. cbn [sassign]. split; [by apply wf_insert|]. apply imap_Forall. intros k p Hp. apply wf_insert; [done|].
  apply lookup_lt_Some in Hp. rewrite zip_with_length in Hp. rewrite app_length, take_length. cbn [length]. rewrite drop_length. lia.
Qed.
Lemma sstep_wf o m : wf m → match sstep o m with Done _ m' ds => wf m' ∧ Forall wf ds | _ => True end.
Proof.
  intros Hw.
  assert (∀ x i, match sat m x i with Done _ m' ds => wf m' ∧ Forall wf ds | _ => True end) as Hsat.
  { intros x i. unfold sat. destruct (m !! x); [|done]. by case_decide. }
  destruct o as [x args|x y|x y|x|x y|x y|x r|x y|x| | | |x|x|x i|x i|i x|p|p v]; cbn [sstep]; try done; try apply Hsat.
  - destruct (m !! x); [done|]. destruct (sargs m args) as [[[vs m1] ds]|] eqn:Hs; [|done]. case_decide; [|done].
    destruct (sargs_wf _ _ _ _ _ Hw Hs). split.
    + apply wf_insert; [done|]. rewrite app_length, replicate_length, (sargs_len _ _ _ _ _ Hs). lia.
    + apply Forall_app. split; [done|]. by apply Forall_replicate.
  - destruct (m !! x); [done|]. destruct (m !! y) as [l|] eqn:Hy; [|done]. split; [apply wf_insert; [done|by apply (Hw y)]|by apply Forall_replicate].
  - destruct (m !! x); [done|]. destruct (m !! y) as [l|] eqn:Hy; [|done]. split; [|by apply Forall_nil_2].
    apply wf_insert; [apply wf_insert; [done|rewrite fmap_length]|]; by apply (Hw y).
  - destruct (m !! x); [|done]. split; [by apply wf_delete|by apply Forall_nil_2].
  - destruct (m !! x) as [a|] eqn:Hx; [|done]. destruct (m !! y) as [b|] eqn:Hy; [|done]. apply sassign_wf; [done|by apply (Hw x)|by apply (Hw y)].
  - destruct (m !! x) as [a|] eqn:Hx; [|done]. destruct (m !! y) as [b|] eqn:Hy; [|done]. case_decide; (split; [|by apply Forall_nil_2]).
    + apply wf_insert; [done|]. rewrite fmap_length. by apply (Hw x).
    + apply wf_insert; [apply wf_insert; [done|rewrite fmap_length]|]; by apply (Hw y).
  - destruct (m !! x) as [a|] eqn:Hx; [|done]. destruct (sref m r) as [v|]; [|done]. apply sassign_wf; [done|by apply (Hw x)|apply replicate_length].
  - destruct (m !! x) as [a|] eqn:Hx; [|done]. destruct (m !! y) as [b|] eqn:Hy; [|done]. case_decide; [done|]. split; [|by apply Forall_nil_2].
    apply wf_insert; [apply wf_insert; [done|]|]; [by apply (Hw x)|by apply (Hw y)].
  - destruct (m !! x); [|done]. split; [done|by apply Forall_nil_2].
  - destruct (m !! x); [|done]. case_decide; [done|apply Hsat].
  - destruct (sref m (RElem p)); [|done]. split; [done|by apply Forall_nil_2].
  - destruct (set_ptr m p v) as [m1|] eqn:Hs; [|done]. split; [by eapply set_ptr_wf|by apply Forall_nil_2].
Qed.
Lemma settle_wf ds : ∀ n d n', Forall wf ds → settle n ds = (Some d, n') → wf d.
Proof.
  induction ds as [|d0 ds IH]; intros n d n' Hd H; [done|]. cbn [settle] in H. apply Forall_cons in Hd as [? ?].
  destruct (fails n); [by injection H as <- _|by eapply IH].
Qed.
Lemma arun_run os : ∀ m n rs m' n', cfg_ok → wf m → srun os m n = Some (rs, m', n') →
  arun os (World m n) = Finished rs (World m' n') ∧ wf m'.
Proof.
  induction os as [|o os IH]; intros m n rs m' n' Hc Hw H; cbn [srun] in H; [by injection H as <- <- <-|]. cbn [arun].
  pose proof (aexec_run o m n Hc Hw) as Ho. pose proof (sstep_wf o m Hw) as Hs.
  destruct (sstep o m) as [|r m1 ds|e]; [done| |]; cbn [agrees] in Ho.
  - destruct Hs as [Hm1 Hds]. rewrite Ho. unfold finish. destruct (settle n ds) as [[d|] n1] eqn:Es.
    + destruct (srun os d n1) as [[[rs1 m2] n2]|] eqn:E; [|done]. injection H as <- <- <-.
      destruct (IH _ _ _ _ _ Hc (settle_wf _ _ _ _ Hds Es) E) as [-> ?]. done.
    + destruct (srun os m1 n1) as [[[rs1 m2] n2]|] eqn:E; [|done]. injection H as <- <- <-.
      destruct (IH _ _ _ _ _ Hc Hm1 E) as [-> ?]. done.
  - rewrite Ho. destruct (srun os m n) as [[[rs1 m2] n2]|] eqn:E; [|done]. injection H as <- <- <-.
    destruct (IH _ _ _ _ _ Hc Hw E) as [-> ?]. done.
Qed.
Lemma wf_empty : wf ∅.
Proof. intros x l H. by rewrite lookup_empty in H. Qed.

(** states in which arrays are after calls inside their contracts *)
Definition reachable (w : world) m : Prop :=
  ∃ os rs rs' n, srun os ∅ 0 = Some (rs, m, n) ∧ arun os init_world = Finished rs' w.
Lemma reachable_run w m : cfg_ok → reachable w m → ∃ n, w = World m n ∧ wf m.
Proof.
  intros Hc (os & rs & rs' & n & Hs & Ha). destruct (arun_run _ _ _ _ _ _ Hc wf_empty Hs) as [E Hw].
  unfold init_world in Ha. rewrite E in Ha. injection Ha as <- <-. by exists n.
Qed.
End proofs.
