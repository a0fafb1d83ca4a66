(** Proofs about StringOrder.v. *)
From stdpp Require Import prelude gmap.
From Coq Require Import NArith ZArith Lia.
From Verif Require Import Cpp StringModel StringOrder StringSpec StringMem StringRep StringOps StringOps2 StringOps3
  StringHistory StringExtra.
Local Open Scope nat_scope.

Lemma uchar_inj a b : uchar a = uchar b → a = b.
Proof.
  unfold uchar. intros E. assert (H : Byte.of_N (Byte.to_N a) = Byte.of_N (Byte.to_N b)) by (by rewrite E).
  rewrite !Byte.of_to_N in H. by injection H.
Qed.

(** ** The lexicographic order *)
(** a recursive reading of it *)
Fixpoint lex (a b : list char) : comparison :=
  match a, b with
  | [], [] => Eq
  | [], _ :: _ => Lt
  | _ :: _, [] => Gt
  | x :: a', y :: b' => match (uchar x ?= uchar y)%N with Eq => lex a' b' | c => c end
  end.
Lemma lex_eq a : ∀ b, lex a b = Eq ↔ a = b.
Proof.
  induction a as [|x a IH]; intros [|y b]; cbn [lex]; try done.
  destruct (N.compare_spec (uchar x) (uchar y)) as [E|Hlt|Hlt].
  - apply uchar_inj in E as ->. rewrite IH. split; [by intros ->|by intros [= ->]].
  - split; [done|]. intros [= -> ->]. lia.
  - split; [done|]. intros [= -> ->]. lia.
Qed.
Lemma lex_cons_lt x y a b : lex_lt (x :: a) (y :: b) ↔ (uchar x < uchar y)%N ∨ (x = y ∧ lex_lt a b).
Proof.
  split.
  - intros [p [(E & c & s & E')|(u & v & s & t & E & E' & Hlt)]].
    + subst p. cbn [app] in E'. injection E' as <- ->. right. split; [done|]. exists a. left. eauto.
    + destruct p as [|z p]; cbn [app] in *.
      * left. injection E as <- ->. by injection E' as <- ->.
      * injection E as <- ->. injection E' as <- ->. right. split; [done|]. exists p. right. eauto 10.
  - intros [Hlt|(-> & p & [(-> & c & s & ->)|(u & v & s & t & -> & -> & Hlt)])].
    + exists []. right. exists x, y, a, b. done.
    + exists (y :: p). left. split; [done|]. by exists c, s.
    + exists (y :: p). right. exists u, v, s, t. done.
Qed.
Lemma lex_lt_spec a : ∀ b, lex a b = Lt ↔ lex_lt a b.
Proof.
  induction a as [|x a IH]; intros [|y b]; cbn [lex].
  - split; [done|]. intros [p [(E & c & s & E')|(u & v & s & t & E & _)]]; [|by destruct p].
    subst p. done.
  - split; [|done]. intros _. exists []. left. split; [done|]. by exists y, b.
  - split; [done|]. intros [p [(E & c & s & E')|(u & v & s & t & _ & E & _)]]; [by destruct p|by destruct p].
  - rewrite lex_cons_lt. destruct (N.compare_spec (uchar x) (uchar y)) as [E|Hlt|Hlt].
    + apply uchar_inj in E as ->. rewrite IH. split; [by right|]. intros [?|[_ ?]]; [lia|done].
    + split; [by left|done].
    + split; [done|]. intros [?|[-> _]]; lia.
Qed.
Lemma lex_flip a : ∀ b, lex b a = CompOpp (lex a b).
Proof.
  induction a as [|x a IH]; intros [|y b]; cbn [lex]; try done.
  rewrite N.compare_antisym. destruct (uchar x ?= uchar y)%N; cbn [CompOpp]; done.
Qed.
Lemma lex_gt_spec a b : lex a b = Gt ↔ lex_lt b a.
Proof. rewrite <-lex_lt_spec, (lex_flip a b). by destruct (lex a b). Qed.

Section proofs.
Context `{C : StrCfg} `{H : HashFn} (Hcfg : cfg_ok).
Notation state := (gmap nat (list char)).
Notation raws := (gmap nat raw).

(** the characters of an operand *)
Definition schars (m : state) (a : operand) : option (list char) :=
  match a with AStr x => m !! x | AView r => svalues m r end.

Lemma rd_src_eq w ρ from l k v : Rep w ρ → src_ok ρ from (Some <$> l) → l !! k = Some v → rd_src (from k) w = Ok v w.
Proof.
  intros HR Hs Hk. pose proof (src_Some _ _ _ Hs _ _ Hk) as Hv.
  destruct (from k) as [o|[q i]]; cbn [rd_src]; [by subst o|].
  destruct Hv as (_ & y & r & Hy & -> & Hi & _). by eapply rd_cell.
Qed.
Lemma view_of_eq w ρ m a l : Rep w ρ → rel ρ m → schars m a = Some l →
  ∃ from, view_of a w = Ok (from, length l) w ∧ src_ok ρ from (Some <$> l).
Proof.
  intros HR Hrel Ha.
  assert (Hrange : ∀ r, svalues m r = Some l → ∃ from, bind_range r w = Ok (from, length l) w ∧ src_ok ρ from (Some <$> l)).
  { intros r Hr. unfold svalues in Hr. destruct (srange m r) as [vs|] eqn:E; [|done].
    destruct (bind_range_eq Hcfg w ρ m r vs HR (λ y l, rel_get ρ m y l Hrel) E) as (from & Hb & Hs & _).
    rewrite (values_Some _ _ Hr) in Hb, Hs. rewrite fmap_length in Hb. eauto. }
  destruct a as [x|r]; cbn [schars view_of] in *; [|by apply Hrange].
  destruct (rel_get _ _ _ _ Hrel Ha) as (s & Hs & Hl). erewrite bind_ok by by eapply str_size_eq.
  rewrite (proj1 Hl). destruct (Nat.eqb_spec (length l) 0) as [E|Hne].
  - destruct l; [|done]. eexists. split; [done|]. intros k v. cbn [fmap list_fmap]. by rewrite lookup_nil.
  - apply Hrange. unfold svalues. cbn [srange]. rewrite Ha, decide_True by lia. rewrite drop_0, firstn_all. apply values_fmap.
Qed.

Lemma traits_compare_eq w ρ f g (a b : list char) : Rep w ρ → src_ok ρ f (Some <$> a) → src_ok ρ g (Some <$> b) →
  ∀ n k, k + n ≤ length a → k + n ≤ length b →
  traits_compare f g k n w = Ok (lex (take n (drop k a)) (take n (drop k b))) w.
Proof.
  intros HR Hf Hg n. induction n as [|n IH]; intros k Ha Hb; cbn [traits_compare]; [by rewrite !take_0|].
  destruct (lookup_lt_is_Some_2 a k ltac:(lia)) as [x Hx]. destruct (lookup_lt_is_Some_2 b k ltac:(lia)) as [y Hy].
  erewrite bind_ok by by eapply rd_src_eq. erewrite bind_ok by by eapply rd_src_eq.
  rewrite (drop_S _ _ _ Hx), (drop_S _ _ _ Hy). cbn [take lex].
  destruct (N.compare_spec (uchar x) (uchar y)) as [E|Hlt|Hlt].
  - rewrite E, N.ltb_irrefl. apply IH; lia.
  - by rewrite (proj2 (N.ltb_lt _ _)) by done.
  - rewrite (proj2 (N.ltb_ge _ _)) by lia. by rewrite (proj2 (N.ltb_lt _ _)) by done.
Qed.
Lemma lex_min a : ∀ b, lex a b =
  match lex (take (length a `min` length b) a) (take (length a `min` length b) b) with Eq => length a ?= length b | c => c end.
Proof.
  induction a as [|x a IH]; intros [|y b]; cbn [length Nat.min take lex]; try done.
  destruct (uchar x ?= uchar y)%N; [|done..]. rewrite IH. done.
Qed.
Lemma compare_with_eq f w ρ m a b l r : Rep w ρ → rel ρ m → schars m a = Some l → schars m b = Some r →
  compare_with f a b w = Ok (f (lex l r)) w.
Proof.
  intros HR Hrel Ha Hb. destruct (view_of_eq _ _ _ _ _ HR Hrel Ha) as (fa & Ea & Hfa).
  destruct (view_of_eq _ _ _ _ _ HR Hrel Hb) as (fb & Eb & Hfb).
  unfold compare_with, noexcept. erewrite bind_ok by exact Ea. erewrite bind_ok by exact Eb.
  assert (Ec : sv_compare (fa, length l) (fb, length r) w = Ok (lex l r) w).
  { unfold sv_compare. cbn [fst snd]. erewrite bind_ok by (by eapply (traits_compare_eq w ρ fa fb l r); [..|lia|lia]).
    rewrite !drop_0, (lex_min l r). by destruct (lex _ _). }
  by erewrite bind_ok by exact Ec.
Qed.
Lemma view_chars_eq w ρ f (a : list char) : Rep w ρ → src_ok ρ f (Some <$> a) →
  ∀ n k, k + n = length a → view_chars f k n w = Ok (drop k a) w.
Proof.
  intros HR Hf n. induction n as [|n IH]; intros k Hk; cbn [view_chars].
  - by rewrite drop_ge by lia.
  - destruct (lookup_lt_is_Some_2 a k ltac:(lia)) as [x Hx]. rewrite (drop_S _ _ _ Hx).
    erewrite bind_ok by by eapply rd_src_eq. erewrite bind_ok by (apply IH; lia). done.
Qed.
Lemma hash_eq w ρ m x l : Rep w ρ → rel ρ m → m !! x = Some l → str_hash x w = Ok (hash_bytes l) w.
Proof.
  intros HR Hrel Hx. destruct (view_of_eq w ρ m (AStr x) l HR Hrel Hx) as (f & E & Hf).
  unfold str_hash, noexcept. erewrite bind_ok by exact E. cbn [fst snd].
  erewrite bind_ok by (by eapply (view_chars_eq w ρ f l)). by rewrite drop_0.
Qed.

(** ** Literals *)
Lemma traits_length_spec a b : NUL ∉ a → traits_length (a ++ NUL :: b) = Some (length a).
Proof.
  induction a as [|c a IH]; intros Hn; cbn [app traits_length length]; [done|].
  destruct (N.eqb_spec (uchar c) 0) as [E|_].
  - exfalso. apply Hn. rewrite (uchar_inj c NUL E). by left.
  - rewrite IH; [done|]. intros ?. apply Hn. by right.
Qed.
End proofs.
