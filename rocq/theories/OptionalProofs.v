(** Every call on optionals does what it does on plain values. *)
From stdpp Require Import prelude gmap.
From Coq Require Import Lia.
From Verif Require Import Cpp OrderSpec OptionalModel OptionalSpec.
Local Open Scope nat_scope.

Section proofs.
Context `{C : OptCfg}.
Notation state := (gmap nat (option V)).

(** the representation: [initialized] says whether the slot holds a value *)
Definition cell (o : option V) : opt := Opt o (match o with Some _ => true | None => false end).
Definition rep (m : state) (k : nat) : world := World (cell <$> m) k.

Lemma get_rep m k x o : m !! x = Some o → get_opt x (rep m k) = Ok (cell o) (rep m k).
Proof. intros H. unfold get_opt. cbn [objs rep]. by rewrite lookup_fmap, H. Qed.
Lemma put_rep m k x o : put_opt x (cell o) (rep m k) = Ok tt (rep (<[x:=o]> m) k).
Proof. unfold put_opt, rep. cbn [objs ncopy]. by rewrite fmap_insert. Qed.
Lemma has_rep m k x o : m !! x = Some o →
  opt_has_value x (rep m k) = Ok (match o with Some _ => true | None => false end) (rep m k).
Proof. intros H. unfold opt_has_value, noexcept, bind. by rewrite (get_rep _ _ _ _ H). Qed.
Lemma rd_rep m k x v : m !! x = Some (Some v) → rd x (rep m k) = Ok v (rep m k).
Proof. intros H. unfold rd, bind. by rewrite (get_rep _ _ _ _ H). Qed.
Lemma store_rep m k x u v : m !! x = Some (Some u) → store x v (rep m k) = Ok tt (rep (<[x:=Some v]> m) k).
Proof. intros H. unfold store, bind. rewrite (get_rep _ _ _ _ H). apply (put_rep m k x (Some v)). Qed.
Lemma rd_ref_rep m k r v : sref m r = Some v → rd_ref r (rep m k) = Ok v (rep m k).
Proof.
  destruct r as [u|y]; cbn [sref rd_ref]; [by intros [= ->]|].
  destruct (m !! y) as [o|] eqn:E; [|done]. intros ->. by apply rd_rep.
Qed.
Lemma rd_refs_rep m k l : ∀ vs, srefs m l = Some vs → rd_refs l (rep m k) = Ok vs (rep m k).
Proof.
  induction l as [|r l IH]; intros vs; cbn [srefs rd_refs]; [by intros [= <-]|].
  destruct (sref m r) as [v|] eqn:E; [|done]. destruct (srefs m l) as [vs'|]; [|done]. intros [= <-].
  unfold bind. rewrite (rd_ref_rep _ _ _ _ E). by rewrite (IH _ eq_refl).
Qed.
Lemma may_throw_rep m k : may_throw (ret tt) (rep m k) =
  if copy_fails k then Exn ElementThrow (rep m (S k)) else Ok tt (rep m (S k)).
Proof. unfold may_throw. cbn [objs ncopy rep]. by destruct (copy_fails k). Qed.

(** initialising from arguments *)
Lemma new_value_rep m k a v m1 : sarg m a = Some (v, m1) →
  new_value a (rep m k) =
    if throwing a then if copy_fails k then Exn ElementThrow (rep m (S k)) else Ok v (rep m1 (S k))
    else Ok v (rep m1 k).
Proof.
  destruct a as [r|r|l]; cbn [sarg new_value throwing].
  - destruct (sref m r) as [u|] eqn:E; [|done]. intros [= <- <-]. unfold bind.
    rewrite (rd_ref_rep _ _ _ _ E), may_throw_rep. by destruct (copy_fails k).
  - destruct (sref m r) as [u|] eqn:E; [|done]. intros [= <- <-]. destruct r as [u'|y]; cbn [sref] in E.
    + by injection E as ->.
    + destruct (m !! y) as [o|] eqn:Ey; [|done]. subst o. unfold bind.
      by rewrite (rd_rep _ _ _ _ Ey), (store_rep _ _ _ _ _ Ey).
  - destruct (srefs m l) as [vs|] eqn:E; [|done]. intros [= <- <-]. unfold bind.
    rewrite (rd_refs_rep _ _ _ _ E), may_throw_rep. by destruct (copy_fails k).
Qed.
(** initialising does not create or remove optionals, and leaves empty ones empty *)
Lemma sarg_none m a v m1 x : sarg m a = Some (v, m1) → m !! x = None → m1 !! x = None.
Proof.
  intros Ha Hx. destruct a as [r|r|l]; cbn [sarg] in Ha.
  - destruct (sref m r); [|done]. by injection Ha as <- <-.
  - destruct (sref m r) as [u|] eqn:E; [|done]. injection Ha as <- <-. destruct r as [|y]; [done|].
    cbn [sref] in E. rewrite lookup_insert_ne; [done|]. intros ->. by rewrite Hx in E.
  - destruct (srefs m l); [|done]. by injection Ha as <- <-.
Qed.
Lemma sarg_empty m a v m1 x : sarg m a = Some (v, m1) → m !! x = Some None → m1 !! x = Some None.
Proof.
  intros Ha Hx. destruct a as [r|r|l]; cbn [sarg] in Ha.
  - destruct (sref m r); [|done]. by injection Ha as <- <-.
  - destruct (sref m r) as [u|] eqn:E; [|done]. injection Ha as <- <-. destruct r as [|y]; [done|].
    cbn [sref] in E. rewrite lookup_insert_ne; [done|]. intros ->. by rewrite Hx in E.
  - destruct (srefs m l); [|done]. by injection Ha as <- <-.
Qed.
Lemma sarg_full m a v m1 x u : sarg m a = Some (v, m1) → m !! x = Some (Some u) → ∃ u', m1 !! x = Some (Some u').
Proof.
  intros Ha Hx. destruct a as [r|r|l]; cbn [sarg] in Ha.
  - destruct (sref m r); [|done]. injection Ha as <- <-. eauto.
  - destruct (sref m r) as [u2|] eqn:E; [|done]. injection Ha as <- <-. destruct r as [|y]; [eauto|].
    destruct (decide (y = x)) as [->|Hne]; [rewrite lookup_insert; eauto|rewrite lookup_insert_ne by done; eauto].
  - destruct (srefs m l); [|done]. injection Ha as <- <-. eauto.
Qed.

(** ** Construction: the object exists with [initialized] set and a raw slot *)
Definition raw (x : nat) (b : bool) (m : state) (k : nat) : world := World (<[x:=Opt None b]> (cell <$> m)) k.

Lemma raw_get m k x b y o : m !! x = None → m !! y = Some o → get_opt y (raw x b m k) = Ok (cell o) (raw x b m k).
Proof.
  intros Hx Hy. unfold get_opt. cbn [objs raw]. rewrite lookup_insert_ne by congruence. by rewrite lookup_fmap, Hy.
Qed.
Lemma raw_has m k x b y o : m !! x = None → m !! y = Some o →
  opt_has_value y (raw x b m k) = Ok (match o with Some _ => true | None => false end) (raw x b m k).
Proof. intros Hx H. unfold opt_has_value, noexcept, bind. by rewrite (raw_get _ _ _ _ _ _ Hx H). Qed.
Lemma raw_rd m k x b y v : m !! x = None → m !! y = Some (Some v) → rd y (raw x b m k) = Ok v (raw x b m k).
Proof. intros Hx H. unfold rd, bind. by rewrite (raw_get _ _ _ _ _ _ Hx H). Qed.
Lemma raw_store m k x b y u v : m !! x = None → m !! y = Some (Some u) →
  store y v (raw x b m k) = Ok tt (raw x b (<[y:=Some v]> m) k).
Proof.
  intros Hx H. unfold store, bind. rewrite (raw_get _ _ _ _ _ _ Hx H). unfold put_opt, raw. cbn [o_val cell objs ncopy o_initialized].
  rewrite insert_commute by congruence. by rewrite fmap_insert.
Qed.
Lemma raw_rd_ref m k x b r v : m !! x = None → sref m r = Some v → rd_ref r (raw x b m k) = Ok v (raw x b m k).
Proof.
  intros Hx. destruct r as [u|y]; cbn [sref rd_ref]; [by intros [= ->]|].
  destruct (m !! y) as [o|] eqn:E; [|done]. intros ->. by apply raw_rd.
Qed.
Lemma raw_rd_refs m k x b l : m !! x = None → ∀ vs, srefs m l = Some vs → rd_refs l (raw x b m k) = Ok vs (raw x b m k).
Proof.
  intros Hx. induction l as [|r l IH]; intros vs; cbn [srefs rd_refs]; [by intros [= <-]|].
  destruct (sref m r) as [v|] eqn:E; [|done]. destruct (srefs m l) as [vs'|]; [|done]. intros [= <-].
  unfold bind. rewrite (raw_rd_ref _ _ _ _ _ _ Hx E). by rewrite (IH _ eq_refl).
Qed.
Lemma raw_may_throw m k x b : may_throw (ret tt) (raw x b m k) =
  if copy_fails k then Exn ElementThrow (raw x b m (S k)) else Ok tt (raw x b m (S k)).
Proof. unfold may_throw. cbn [objs ncopy raw]. by destruct (copy_fails k). Qed.
Lemma raw_new_value m k x b a v m1 : m !! x = None → sarg m a = Some (v, m1) →
  new_value a (raw x b m k) =
    if throwing a then if copy_fails k then Exn ElementThrow (raw x b m (S k)) else Ok v (raw x b m1 (S k))
    else Ok v (raw x b m1 k).
Proof.
  intros Hx. destruct a as [r|r|l]; cbn [sarg new_value throwing].
  - destruct (sref m r) as [u|] eqn:E; [|done]. intros [= <- <-]. unfold bind.
    rewrite (raw_rd_ref _ _ _ _ _ _ Hx E), raw_may_throw. by destruct (copy_fails k).
  - destruct (sref m r) as [u|] eqn:E; [|done]. intros [= <- <-]. destruct r as [u'|y]; cbn [sref] in E.
    + by injection E as ->.
    + destruct (m !! y) as [o|] eqn:Ey; [|done]. subst o. unfold bind.
      by rewrite (raw_rd _ _ _ _ _ _ Hx Ey), (raw_store _ _ _ _ _ _ _ Hx Ey).
  - destruct (srefs m l) as [vs|] eqn:E; [|done]. intros [= <- <-]. unfold bind.
    rewrite (raw_rd_refs _ _ _ _ _ Hx _ E), raw_may_throw. by destruct (copy_fails k).
Qed.
Lemma raw_construct m k x v : construct x v (raw x true m k) = Ok tt (rep (<[x:=Some v]> m) k).
Proof.
  unfold construct, bind, get_opt. cbn [objs raw]. rewrite lookup_insert. cbn [o_val]. unfold put_opt, raw, rep.
  cbn [objs ncopy o_initialized]. by rewrite insert_insert, fmap_insert.
Qed.
Lemma raw_drop m k x b : m !! x = None → drop_opt x (raw x b m k) = Ok tt (rep m k).
Proof.
  intros Hx. unfold drop_opt, bind, get_opt. cbn [objs raw]. rewrite lookup_insert. cbn [o_val ncopy objs raw].
  unfold rep, raw. cbn [objs ncopy]. by rewrite delete_insert by (by rewrite lookup_fmap, Hx).
Qed.
Lemma raw_false m k x : raw x false m k = rep (<[x:=None]> m) k.
Proof. unfold raw, rep. by rewrite fmap_insert. Qed.

(** construct from arguments *)
Lemma new_value_eq m k x a v m1 : m !! x = None → sarg m a = Some (v, m1) →
  construct_opt x true (v <- new_value a ;; construct x v) (rep m k) =
    if throwing a then if copy_fails k then Exn ElementThrow (rep m (S k)) else Ok tt (rep (<[x:=Some v]> m1) (S k))
    else Ok tt (rep (<[x:=Some v]> m1) k).
Proof.
  intros Hx Ha. unfold construct_opt, bind at 1, put_opt. cbn [objs ncopy rep]. fold (raw x true m k).
  unfold on_exn, bind. rewrite (raw_new_value _ _ _ _ _ _ _ Hx Ha).
  destruct (throwing a); [destruct (copy_fails k)|].
  - by rewrite raw_drop.
  - by rewrite raw_construct.
  - by rewrite raw_construct.
Qed.

(** ** Members *)
Lemma destroy_rep m k x v : m !! x = Some (Some v) → destroy_at x (rep m k) = Ok tt (raw x true m k).
Proof. intros H. unfold destroy_at, bind. rewrite (get_rep _ _ _ _ H). done. Qed.
Lemma set_init_raw m k x b c : set_initialized x c (raw x b m k) = Ok tt (raw x c m k).
Proof.
  unfold set_initialized, bind, get_opt. cbn [objs raw]. rewrite lookup_insert. cbn [o_val]. unfold put_opt, raw.
  cbn [objs ncopy]. by rewrite insert_insert.
Qed.
Lemma reset_rep m k x o : m !! x = Some o → opt_reset x (rep m k) = Ok tt (rep (<[x:=None]> m) k).
Proof.
  intros H. unfold opt_reset, noexcept, bind. rewrite (has_rep _ _ _ _ H). destruct o as [v|].
  - by rewrite (destroy_rep _ _ _ _ H), set_init_raw, raw_false.
  - cbn. by rewrite insert_id.
Qed.
(** a value is constructed in an empty optional *)
Lemma fill_rep m k x v : m !! x = Some None →
  (construct x v ;;; set_initialized x true) (rep m k) = Ok tt (rep (<[x:=Some v]> m) k).
Proof.
  intros H. unfold construct, bind. rewrite (get_rep _ _ _ _ H). cbn [o_val cell o_initialized].
  unfold set_initialized, bind, put_opt, get_opt. cbn [objs ncopy rep]. rewrite lookup_insert.
  cbn [objs o_val ncopy]. rewrite insert_insert. unfold rep. by rewrite fmap_insert.
Qed.
Lemma assign_rep m k x r v : is_Some (m !! x) → sref m r = Some v →
  opt_assign x r (rep m k) =
    if copy_fails k then
      Exn ElementThrow (rep (match m !! x with Some (Some old) => <[x:=Some (torn old v)]> m | _ => m end) (S k))
    else Ok tt (rep (<[x:=Some v]> m) (S k)).
Proof.
  intros [o Hx] Hr. unfold opt_assign, bind at 1. rewrite (has_rep _ _ _ _ Hx), Hx. destruct o as [old|].
  - unfold copy_assign_val, bind. rewrite (rd_ref_rep _ _ _ _ Hr), (rd_rep _ _ _ _ Hx).
    unfold may_throw. cbn [objs ncopy rep]. destruct (copy_fails k).
    + unfold bind. fold (rep m (S k)). by rewrite (store_rep _ _ _ _ _ Hx).
    + fold (rep m (S k)). by rewrite (store_rep _ _ _ _ _ Hx).
  - unfold bind at 1. assert (Ha : sarg m (ACopy r) = Some (v, m)) by (cbn [sarg]; by rewrite Hr).
    rewrite (new_value_rep _ _ _ _ _ Ha). cbn [throwing]. destruct (copy_fails k); [done|]. by apply fill_rep.
Qed.
Lemma assign_rvalue_rep m k x r v : is_Some (m !! x) → sref m r = Some v →
  opt_assign_rvalue x r (rep m k) = Ok tt (rep (
    match r with
    | RVal _ => <[x:=Some v]> m
    | ROpt y => if decide (x = y) then <[x:=Some (selfmove v)]> m else <[x:=Some v]> (<[y:=Some (moved v)]> m)
    end) k).
Proof.
  intros [o Hx] Hr. unfold opt_assign_rvalue, noexcept, bind at 1. rewrite (has_rep _ _ _ _ Hx). destruct o as [old|].
  - unfold move_assign_val. destruct r as [u|y]; cbn [sref] in Hr.
    + injection Hr as ->. by rewrite (store_rep _ _ _ _ _ Hx).
    + destruct (m !! y) as [o|] eqn:Ey; [|done]. subst o. unfold bind at 1. rewrite (rd_rep _ _ _ _ Ey).
      destruct (decide (x = y)) as [->|Hne]; [by rewrite (store_rep _ _ _ _ _ Hx)|].
      unfold bind. rewrite (store_rep _ _ _ _ _ Hx).
      rewrite (store_rep _ _ _ v) by (by rewrite lookup_insert_ne). by rewrite insert_commute.
  - unfold bind at 1. assert (Ha : sarg m (AMove r) = Some (v, match r with RVal _ => m | ROpt y => <[y:=Some (moved v)]> m end)).
    { cbn [sarg]. by rewrite Hr. }
    rewrite (new_value_rep _ _ _ _ _ Ha). cbn [throwing]. rewrite fill_rep by by eapply sarg_empty.
    destruct r as [u|y]; [done|]. rewrite decide_False; [done|]. intros ->. cbn [sref] in Hr. by rewrite Hx in Hr.
Qed.
Lemma emplace_rep m k x a v m1 : is_Some (m !! x) → sarg m a = Some (v, m1) →
  opt_emplace x a (rep m k) =
    if throwing a then if copy_fails k then Exn ElementThrow (rep m (S k)) else Ok v (rep (<[x:=Some v]> m1) (S k))
    else Ok v (rep (<[x:=Some v]> m1) k).
Proof.
  intros [o Hx] Ha. unfold opt_emplace, bind at 1. rewrite (has_rep _ _ _ _ Hx). unfold bind at 1.
  assert (Hf : ∀ k', match (if match o with Some _ => true | None => false end then store x v
       else construct x v ;;; set_initialized x true) (rep m1 k') with
      | Ok _ s' => opt_deref x s' | Exn e s' => Exn e s' | Stuck f => Stuck f | Terminated => Terminated end
      = Ok v (rep (<[x:=Some v]> m1) k')).
  { intros k'. destruct o as [u|].
    - destruct (sarg_full _ _ _ _ _ _ Ha Hx) as [u' Hu]. rewrite (store_rep _ _ _ _ _ Hu). unfold opt_deref.
      by rewrite (rd_rep _ _ _ v) by by rewrite lookup_insert.
    - rewrite fill_rep by by eapply sarg_empty. unfold opt_deref.
      by rewrite (rd_rep _ _ _ v) by by rewrite lookup_insert. }
  destruct o as [u|]; unfold bind at 1; rewrite (new_value_rep _ _ _ _ _ Ha).
  - destruct (throwing a); [destruct (copy_fails k); [done|]|]; apply Hf.
  - destruct (throwing a); [destruct (copy_fails k); [done|]|]; apply Hf.
Qed.
Lemma swap_rep m k x y a b : m !! x = Some a → m !! y = Some b →
  opt_swap x y (rep m k) = Ok tt (rep (<[x:=b]> (<[y:=a]> m)) k).
Proof.
  intros Hx Hy. unfold opt_swap, noexcept. destruct (decide (x = y)) as [->|Hne].
  { unfold bind. rewrite (get_rep _ _ _ _ Hx). simplify_eq. cbn. by rewrite insert_insert, insert_id. }
  unfold bind at 1. rewrite (has_rep _ _ _ _ Hx). unfold bind at 1. rewrite (has_rep _ _ _ _ Hy).
  assert (Hm : ∀ z v, m !! z = Some (Some v) → sarg m (AMove (ROpt z)) = Some (v, <[z:=Some (moved v)]> m)).
  { intros z v Hz. cbn [sarg sref]. by rewrite Hz. }
  assert (Hmv : ∀ p q v, p ≠ q → m !! p = Some (Some v) → m !! q = Some None →
    (v <- new_value (AMove (ROpt p)) ;; construct q v ;;; set_initialized q true ;;; destroy_at p ;;; set_initialized p false) (rep m k)
    = Ok tt (rep (<[q:=Some v]> (<[p:=None]> m)) k)).
  { intros p q v Hpq Hp Hq. unfold bind at 1. rewrite (new_value_rep _ _ _ _ _ (Hm _ _ Hp)). cbn [throwing].
    pose proof (fill_rep (<[p:=Some (moved v)]> m) k q v ltac:(by rewrite lookup_insert_ne)) as Hf.
    unfold bind in Hf |- *. destruct (construct q v (rep (<[p:=Some (moved v)]> m) k)) as [? s1| | |]; [|done..]. rewrite Hf.
    rewrite (destroy_rep _ _ _ (moved v)) by (by rewrite lookup_insert_ne, lookup_insert).
    rewrite set_init_raw, raw_false. rewrite insert_commute by done. by rewrite insert_insert. }
  destruct a as [u|], b as [v|].
  - unfold bind. rewrite (rd_rep _ _ _ _ Hx), (rd_rep _ _ _ _ Hy), (store_rep _ _ _ _ _ Hx).
    rewrite (store_rep _ _ _ v) by by rewrite lookup_insert_ne. by rewrite insert_commute.
  - rewrite (Hmv x y u) by done. by rewrite insert_commute.
  - rewrite (Hmv y x v) by done. done.
  - cbn. rewrite (insert_id _ y) by done. by rewrite insert_id.
Qed.

(** ** One call *)
Theorem oexec_rep o m k :
  match sstep o m with
  | Bad => True
  | Throws e => oexec o (rep m k) = Exn e (rep m k)
  | Done r m' None => oexec o (rep m k) = Ok r (rep m' k)
  | Done r m' (Some mf) =>
      oexec o (rep m k) = if copy_fails k then Exn ElementThrow (rep mf (S k)) else Ok r (rep m' (S k))
  end.
Proof.
  destruct o as [x|x y|x y|x a|x r|x|x|x y|x y|x r|x r|x a|x|x y|x v|x|x|x|x|x d|x d]; cbn [sstep oexec]; unfold obs_unit, obs_val, obs_bool.
  - destruct (m !! x) eqn:Hx; [done|]. unfold opt_new, noexcept, construct_opt, bind, put_opt. cbn [objs ncopy rep].
    unfold on_exn, ret, rep. by rewrite fmap_insert.
  - destruct (m !! x) eqn:Hx; [done|]. destruct (m !! y) as [[v|]|] eqn:Hy; [| |done].
    + unfold bind at 1, opt_new_copy, bind at 1. rewrite (has_rep _ _ _ _ Hy).
      assert (Ha : sarg m (ACopy (ROpt y)) = Some (v, m)) by (cbn [sarg sref]; by rewrite Hy).
      assert (construct_opt x true (c <- opt_has_value y ;; if c then v <- new_value (ACopy (ROpt y)) ;; construct x v else ret tt) (rep m k)
        = construct_opt x true (v <- new_value (ACopy (ROpt y)) ;; construct x v) (rep m k)) as ->.
      { unfold construct_opt, bind at 1 4, put_opt. cbn [objs ncopy rep]. fold (raw x true m k). unfold on_exn, bind at 1.
        by rewrite (raw_has _ _ _ _ _ _ Hx Hy). }
      rewrite (new_value_eq _ _ _ _ _ _ Hx Ha). cbn [throwing]. by destruct (copy_fails k).
    + unfold bind at 1, opt_new_copy, bind at 1. rewrite (has_rep _ _ _ _ Hy).
      unfold construct_opt, bind at 1, put_opt. cbn [objs ncopy rep]. fold (raw x false m k). unfold on_exn, bind.
      rewrite (raw_has _ _ _ _ _ _ Hx Hy). by rewrite raw_false.
  - destruct (m !! x) eqn:Hx; [done|]. destruct (m !! y) as [[v|]|] eqn:Hy; [| |done].
    + unfold bind at 1, opt_new_move, noexcept, bind at 1. rewrite (has_rep _ _ _ _ Hy).
      assert (Ha : sarg m (AMove (ROpt y)) = Some (v, <[y:=Some (moved v)]> m)) by (cbn [sarg sref]; by rewrite Hy).
      assert (construct_opt x true (c <- opt_has_value y ;; if c then v <- new_value (AMove (ROpt y)) ;; construct x v else ret tt) (rep m k)
        = construct_opt x true (v <- new_value (AMove (ROpt y)) ;; construct x v) (rep m k)) as ->.
      { unfold construct_opt, bind at 1 4, put_opt. cbn [objs ncopy rep]. fold (raw x true m k). unfold on_exn, bind at 1.
        by rewrite (raw_has _ _ _ _ _ _ Hx Hy). }
      by rewrite (new_value_eq _ _ _ _ _ _ Hx Ha).
    + unfold bind at 1, opt_new_move, noexcept, bind at 1. rewrite (has_rep _ _ _ _ Hy).
      unfold construct_opt, bind at 1, put_opt. cbn [objs ncopy rep]. fold (raw x false m k). unfold on_exn, bind.
      rewrite (raw_has _ _ _ _ _ _ Hx Hy). cbn. rewrite raw_false. by rewrite (insert_id m y).
  - unfold snew. destruct (m !! x) eqn:Hx; [done|]. destruct (sarg m a) as [[v m1]|] eqn:Ha; [|done].
    unfold bind, opt_new_value. rewrite (new_value_eq _ _ _ _ _ _ Hx Ha). destruct (throwing a); [|done]. by destruct (copy_fails k).
  - unfold snew. destruct (m !! x) eqn:Hx; [done|]. destruct (sarg m (AMove r)) as [[v m1]|] eqn:Ha; [|done].
    unfold bind, opt_new_rvalue, noexcept. by rewrite (new_value_eq _ _ _ _ _ _ Hx Ha).
  - destruct (m !! x) as [o|] eqn:Hx; [|done]. unfold opt_destroy, noexcept, bind. rewrite (reset_rep _ _ _ _ Hx).
    unfold drop_opt, bind. rewrite (get_rep _ _ _ None) by by rewrite lookup_insert. cbn [o_val cell objs ncopy rep].
    unfold ret, rep. rewrite <-fmap_delete. by rewrite delete_insert_delete.
  - destruct (m !! x) as [o|] eqn:Hx; [|done]. unfold opt_assign_null, noexcept, bind. by rewrite (reset_rep _ _ _ _ Hx).
  - unfold opt_copy_assign. destruct (decide (x = y)) as [->|Hne].
    + destruct (m !! y) as [o|] eqn:Hx; [|done]. unfold bind. by rewrite (get_rep _ _ _ _ Hx).
    + destruct (m !! x) as [o|] eqn:Hx; [|done]. destruct (m !! y) as [[v|]|] eqn:Hy; [| |done].
      * unfold bind. rewrite (has_rep _ _ _ _ Hy). assert (sref m (ROpt y) = Some v) as Hr by (cbn [sref]; by rewrite Hy).
        rewrite (assign_rep _ _ _ _ _ ltac:(by exists o) Hr). unfold sassign. rewrite Hx. destruct o as [old|]; by destruct (copy_fails k).
      * unfold bind. rewrite (has_rep _ _ _ _ Hy). by rewrite (reset_rep _ _ _ _ Hx).
  - unfold opt_move_assign, noexcept. destruct (decide (x = y)) as [->|Hne].
    + destruct (m !! y) as [o|] eqn:Hx; [|done]. unfold bind. by rewrite (get_rep _ _ _ _ Hx).
    + destruct (m !! x) as [o|] eqn:Hx; [|done]. destruct (m !! y) as [[v|]|] eqn:Hy; [| |done].
      * unfold bind. rewrite (has_rep _ _ _ _ Hy). assert (sref m (ROpt y) = Some v) as Hr by (cbn [sref]; by rewrite Hy).
        rewrite (assign_rvalue_rep _ _ _ _ _ ltac:(by exists o) Hr). by rewrite decide_False.
      * unfold bind. rewrite (has_rep _ _ _ _ Hy). rewrite (reset_rep _ _ _ _ Hx). cbn. by rewrite (insert_id m y).
  - destruct (sref m r) as [v|] eqn:Hr; [|done]. unfold sassign. destruct (m !! x) as [[old|]|] eqn:Hx; [| |done].
    + unfold bind. rewrite (assign_rep _ _ _ _ _ ltac:(by exists (Some old)) Hr), Hx. by destruct (copy_fails k).
    + unfold bind. rewrite (assign_rep _ _ _ _ _ ltac:(by exists None) Hr), Hx. by destruct (copy_fails k).
  - destruct (m !! x) as [o|] eqn:Hx; [|done]. destruct (sref m r) as [v|] eqn:Hr; [|done].
    unfold bind. rewrite (assign_rvalue_rep _ _ _ _ _ ltac:(by exists o) Hr). destruct r as [u|y]; [done|]. by destruct (decide (x = y)).
  - destruct (m !! x) as [o|] eqn:Hx; [|done]. destruct (sarg m a) as [[v m1]|] eqn:Ha; [|done].
    unfold bind. rewrite (emplace_rep _ _ _ _ _ _ ltac:(by exists o) Ha). destruct (throwing a); [|done]. by destruct (copy_fails k).
  - destruct (m !! x) as [o|] eqn:Hx; [|done]. unfold bind. by rewrite (reset_rep _ _ _ _ Hx).
  - destruct (m !! x) as [a|] eqn:Hx; [|done]. destruct (m !! y) as [b|] eqn:Hy; [|done]. unfold bind. by rewrite (swap_rep _ _ _ _ _ _ Hx Hy).
  - destruct (m !! x) as [[u|]|] eqn:Hx; [|done..]. unfold bind, opt_write. by rewrite (store_rep _ _ _ _ _ Hx).
  - destruct (m !! x) as [o|] eqn:Hx; [|done]. unfold bind. by rewrite (has_rep _ _ _ _ Hx).
  - destruct (m !! x) as [[u|]|] eqn:Hx; [|done..]. unfold bind, opt_deref. by rewrite (rd_rep _ _ _ _ Hx).
  - destruct (m !! x) as [[u|]|] eqn:Hx; [| |done]; unfold bind, opt_value, bind; rewrite (has_rep _ _ _ _ Hx); [|done].
    unfold opt_deref. by rewrite (rd_rep _ _ _ _ Hx).
  - destruct (m !! x) as [[u|]|] eqn:Hx; [| |done]; unfold bind, opt_take, bind; rewrite (has_rep _ _ _ _ Hx); [|done].
    assert (Ha : sarg m (AMove (ROpt x)) = Some (u, <[x:=Some (moved u)]> m)) by (cbn [sarg sref]; by rewrite Hx).
    by rewrite (new_value_rep _ _ _ _ _ Ha).
  - destruct (m !! x) as [[u|]|] eqn:Hx; [| |done]; unfold bind, opt_value_or, bind; rewrite (has_rep _ _ _ _ Hx).
    + assert (Ha : sarg m (ACopy (ROpt x)) = Some (u, m)) by (cbn [sarg sref]; by rewrite Hx).
      rewrite (new_value_rep _ _ _ _ _ Ha). cbn [throwing]. by destruct (copy_fails k).
    + destruct (sarg m d) as [[v m1]|] eqn:Ha; [|done]. rewrite (new_value_rep _ _ _ _ _ Ha). destruct (throwing d); [|done]. by destruct (copy_fails k).
  - destruct (m !! x) as [[u|]|] eqn:Hx; [| |done]; unfold bind, opt_take_or, bind; rewrite (has_rep _ _ _ _ Hx).
    + assert (Ha : sarg m (AMove (ROpt x)) = Some (u, <[x:=Some (moved u)]> m)) by (cbn [sarg sref]; by rewrite Hx).
      by rewrite (new_value_rep _ _ _ _ _ Ha).
    + destruct (sarg m d) as [[v m1]|] eqn:Ha; [|done]. rewrite (new_value_rep _ _ _ _ _ Ha). destruct (throwing d); [|done]. by destruct (copy_fails k).
Qed.

(** ** Histories *)
Lemma orun_rep os : ∀ m k rs m' k', srun os m k = Some (rs, m', k') → orun os (rep m k) = Finished rs (rep m' k').
Proof.
  induction os as [|o os IH]; intros m k rs m' k'; cbn [srun orun]; [by intros [= <- <- <-]|].
  pose proof (oexec_rep o m k) as H. destruct (sstep o m) as [|r m1 [mf|]|e]; [done| | |].
  - rewrite H. destruct (copy_fails k).
    + destruct (srun os mf (S k)) as [[[rs1 m2] k2]|] eqn:E; [|done]. intros [= <- <- <-]. by rewrite (IH _ _ _ _ _ E).
    + destruct (srun os m1 (S k)) as [[[rs1 m2] k2]|] eqn:E; [|done]. intros [= <- <- <-]. by rewrite (IH _ _ _ _ _ E).
  - rewrite H. destruct (srun os m1 k) as [[[rs1 m2] k2]|] eqn:E; [|done]. intros [= <- <- <-]. by rewrite (IH _ _ _ _ _ E).
  - rewrite H. destruct (srun os m k) as [[[rs1 m2] k2]|] eqn:E; [|done]. intros [= <- <- <-]. by rewrite (IH _ _ _ _ _ E).
Qed.
Lemma rep_init : rep ∅ 0 = init_world.
Proof. unfold rep, init_world. by rewrite fmap_empty. Qed.
Lemma rep_shows m k : shows (rep m k) m.
Proof.
  intros x. destruct (m !! x) as [[v|]|] eqn:Hx.
  - split; [by rewrite (has_rep _ _ _ _ Hx)|]. unfold opt_deref. by apply rd_rep.
  - by rewrite (has_rep _ _ _ _ Hx).
  - cbn [objs rep]. by rewrite lookup_fmap, Hx.
Qed.
Lemma reachable_rep w m : reachable w m → ∃ k, w = rep m k.
Proof.
  intros (os & rs & k & Hs & Ho). exists k. pose proof (orun_rep _ _ _ _ _ _ Hs) as H. rewrite rep_init, Ho in H. by injection H.
Qed.

(** ** Comparisons *)
Context `{Ops : !SixOps V}.
Lemma cmp_vals_rep f m k a b u v : sref m a = Some u → sref m b = Some v →
  cmp_vals f a b (rep m k) = Ok (f (six_ops u v)) (rep m k).
Proof. intros Ha Hb. unfold cmp_vals, bind. by rewrite (rd_ref_rep _ _ _ _ Ha), (rd_ref_rep _ _ _ _ Hb). Qed.
Lemma six_of_rep m k a b u v fs : six_of a b = Some fs → soperand m a = Some u → soperand m b = Some v →
  (λ f : M world bool, f (rep m k)) <$> fs = (λ r, Ok r (rep m k)) <$> answer_list (opt_six u v).
Proof.
  assert (Hs : ∀ x u, m !! x = Some (Some u) → sref m (ROpt x) = Some u) by (intros x u' H; cbn [sref]; by rewrite H).
  destruct a as [x| |ra], b as [y| |rb]; cbn [six_of soperand]; intros [= <-] Ha Hb; try done.
  - unfold oo_lt, oo_le, oo_gt, oo_ge, oo_eq, oo_ne, noexcept, bind. cbn [fmap list_fmap].
    rewrite !(has_rep _ _ _ _ Ha), !(has_rep _ _ _ _ Hb).
    destruct u as [u|], v as [v|]; cbn [Bool.eqb negb]; rewrite ?(has_rep _ _ _ _ Ha), ?(has_rep _ _ _ _ Hb); cbn [Bool.eqb negb]; try done.
    by rewrite !(cmp_vals_rep _ _ _ _ _ u v) by by apply Hs.
  - unfold on_lt, on_le, on_gt, on_ge, on_eq, on_ne, noexcept, bind. cbn [fmap list_fmap]. injection Hb as <-.
    rewrite !(has_rep _ _ _ _ Ha), !(get_rep _ _ _ _ Ha). by destruct u.
  - destruct (sref m rb) as [v'|] eqn:Er; [|done]. injection Hb as <-.
    unfold ov_lt, ov_le, ov_gt, ov_ge, ov_eq, ov_ne, if_full, noexcept, bind. cbn [fmap list_fmap].
    rewrite !(has_rep _ _ _ _ Ha). destruct u as [u|]; [|done]. by rewrite !(cmp_vals_rep _ _ _ _ _ u v') by auto.
  - unfold no_lt, no_le, no_gt, no_ge, no_eq, no_ne, noexcept, bind. cbn [fmap list_fmap]. injection Ha as <-.
    rewrite !(has_rep _ _ _ _ Hb), !(get_rep _ _ _ _ Hb). by destruct v.
  - destruct (sref m ra) as [u'|] eqn:Er; [|done]. injection Ha as <-.
    unfold vo_lt, vo_le, vo_gt, vo_ge, vo_eq, vo_ne, if_full, noexcept, bind. cbn [fmap list_fmap].
    rewrite !(has_rep _ _ _ _ Hb). destruct v as [v|]; [|done]. by rewrite !(cmp_vals_rep _ _ _ _ _ u' v) by auto.
Qed.
End proofs.
