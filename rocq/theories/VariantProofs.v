(** Every call on variants does what it does on tagged values. *)
From stdpp Require Import prelude gmap.
From Coq Require Import Lia.
From Verif Require Import Cpp OrderSpec VariantModel VariantSpec.
Local Open Scope nat_scope.

(** ** Compile-time functions *)
Lemma determine_index_from T l : ∀ i, i + length l ≤ 255 →
  match fst <$> list_find (T =.) l with
  | Some j => determine_index T l i = i + j ∧ j < length l
  | None => determine_index T l i = not_found
  end.
Proof.
  induction l as [|h t IH]; intros i Hi; [done|]. cbn [determine_index list_find length] in *.
  destruct (decide (T = h)) as [->|Hne]; [cbn; lia|].
  destruct t as [|h' t']; [done|].
  specialize (IH (Nat.modulo (i + 1) 256)). rewrite Nat.mod_small in IH |- * by (cbn [length] in Hi; lia).
  specialize (IH ltac:(lia)). destruct (list_find (T =.) (h' :: t')) as [[j y]|] eqn:E; cbn [fmap option_fmap option_map fst prod_map] in IH |- *; [|done].
  destruct IH as [IH1 IH2]. split; [|cbn [length] in *; lia]. rewrite IH1. lia.
Qed.
Lemma find_position T l i : (fst <$> list_find (T =.) l = Some i) ↔ at_position T l i.
Proof.
  split.
  - intros H. apply fmap_Some in H as ([j y] & H & ->). apply list_find_Some in H as (H1 & <- & H3). cbn [fst].
    split; [done|]. intros j' Hj Hl. by eapply H3.
  - intros [H1 H2]. destruct (list_find (T =.) l) as [[j y]|] eqn:E.
    + apply list_find_Some in E as (E1 & <- & E3). cbn. f_equal. destruct (lt_eq_lt_dec i j) as [[?|?]|?]; [|done|].
      * exfalso. by apply (E3 i T H1).
      * exfalso. by apply (H2 j).
    + apply list_find_None in E. rewrite Forall_forall in E. exfalso. apply (E T); [|done]. by eapply elem_of_list_lookup_2.
Qed.
Lemma find_none (T : ty) l : (fst <$> list_find (T =.) l = None) ↔ T ∉ l.
Proof.
  destruct (list_find (T =.) l) as [[j y]|] eqn:E; cbn.
  - split; [done|]. apply list_find_Some in E as (E1 & <- & _). intros H. exfalso. apply H. by eapply elem_of_list_lookup_2.
  - split; [|done]. intros _ H. apply list_find_None in E. rewrite Forall_forall in E. by apply (E T).
Qed.
Lemma validate_unique_nodup l : length l ≤ 255 → validate_unique l = true ↔ NoDup l.
Proof.
  induction l as [|h t IH]; intros Hl; cbn [length] in *.
  - split; [constructor|done].
  - rewrite NoDup_cons. pose proof (determine_index_from h t 0 ltac:(lia)) as Hd.
    assert (validate_unique (h :: t) = if negb (determine_index h t 0 =? not_found) then false else validate_unique t) as ->.
    { destruct t; [done|]. done. }
    rewrite <-(find_none h t). destruct (fst <$> list_find (h =.) t) as [j|].
    + destruct Hd as [-> Hj]. split; [|by intros [? _]]. unfold not_found. destruct (Nat.eqb_spec (0 + j) 255); [lia|done].
    + rewrite Hd. rewrite Nat.eqb_refl. cbn [negb]. rewrite IH by lia. tauto.
Qed.
Lemma determine_type_lookup l : ∀ i, determine_type i l = l !! i.
Proof. induction l as [|h t IH]; intros [|i]; cbn; auto. Qed.

Section proofs.
Context `{C : VarCfg}.
Notation state := (gmap nat (nat * V)).
Notation name := (option nat).
Notation n := (length alts).

(** ** Representation *)
Definition cell (p : nat * V) : var := Var (Some p) p.1.
Definition emb (m : state) : gmap name var := kmap Some (cell <$> m).
Definition rep (m : state) (k : nat) (l : list (nat * V)) : world := World (emb m) k l.
Definition wf (m : state) : Prop := ∀ x i v, m !! x = Some (i, v) → i < n.

Lemma emb_Some m x : emb m !! Some x = cell <$> m !! x.
Proof. unfold emb. rewrite (lookup_kmap Some), lookup_fmap. done. Qed.
Lemma emb_None m : emb m !! None = None.
Proof. unfold emb. apply lookup_kmap_None; [apply _|]. by intros i [=]. Qed.
Lemma emb_insert m x c : emb (<[x:=c]> m) = <[Some x:=cell c]> (emb m).
Proof. unfold emb. by rewrite fmap_insert, (kmap_insert Some). Qed.
Lemma emb_delete m x : emb (delete x m) = delete (Some x) (emb m).
Proof. unfold emb. by rewrite fmap_delete, (kmap_delete Some). Qed.
Lemma emb_at m x i v : m !! x = Some (i, v) → emb m !! Some x = Some (Var (Some (i, v)) i).
Proof. intros H. by rewrite emb_Some, H. Qed.

Lemma insert_case {K A} `{Countable K} (m : gmap K A) i j x :
  <[i:=x]> m !! j = if decide (i = j) then Some x else m !! j.
Proof. case_decide; subst; [by rewrite lookup_insert|by rewrite lookup_insert_ne]. Qed.
Lemma delete_case {K A} `{Countable K} (m : gmap K A) i j :
  delete i m !! j = if decide (i = j) then None else m !! j.
Proof. case_decide; subst; [by rewrite lookup_delete|by rewrite lookup_delete_ne]. Qed.
Ltac mapeq := apply map_eq; intros ?z; rewrite ?delete_case, ?insert_case; repeat case_decide; subst; try done; try congruence.

(** ** Primitives *)
Lemma get_type_run g k l p s t : g !! p = Some (Var s t) → get_type p (World g k l) = Ok t (World g k l).
Proof. intros H. unfold get_type, bind, get_var. cbn [objs]. by rewrite H. Qed.
Lemma set_type_run g k l p s t t' : g !! p = Some (Var s t) →
  set_type p t' (World g k l) = Ok tt (World (<[p:=Var s t']> g) k l).
Proof. intros H. unfold set_type, bind, get_var. cbn [objs]. by rewrite H. Qed.
Lemma st_get_run g k l p i v t : g !! p = Some (Var (Some (i, v)) t) → st_get p i (World g k l) = Ok v (World g k l).
Proof. intros H. unfold st_get, bind, get_var. cbn [objs]. rewrite H. cbn [v_storage]. by rewrite decide_True. Qed.
Lemma st_store_run g k l p i v u t : g !! p = Some (Var (Some (i, v)) t) →
  st_store p i u (World g k l) = Ok tt (World (<[p:=Var (Some (i, u)) t]> g) k l).
Proof. intros H. unfold st_store, bind, get_var. cbn [objs]. rewrite H. cbn [v_storage]. by rewrite decide_True. Qed.
Lemma st_set_run g k l p i v t : g !! p = Some (Var None t) →
  st_set p i v (World g k l) = Ok tt (World (<[p:=Var (Some (i, v)) t]> g) k l).
Proof. intros H. unfold st_set, bind, get_var. cbn [objs]. by rewrite H. Qed.
Lemma st_destroy_run g k l p i v t : g !! p = Some (Var (Some (i, v)) t) →
  st_destroy p i (World g k l) = Ok tt (World (<[p:=Var None t]> g) k l).
Proof. intros H. unfold st_destroy, bind, get_var. cbn [objs]. rewrite H. cbn [v_storage]. by rewrite decide_True. Qed.
Lemma drop_run g k l p t : g !! p = Some (Var None t) → drop_var p (World g k l) = Ok tt (World (delete p g) k l).
Proof. intros H. unfold drop_var, bind, get_var. cbn [objs]. by rewrite H. Qed.
Lemma dispatch_run {A} (f : nat → M world A) t : t < n → dispatch f t = f t.
Proof. intros H. unfold dispatch. rewrite list_lookup_fmap, lookup_seq_lt by done. done. Qed.

(** ** Arguments *)
(** the state in which an argument has been consumed *)
Definition touch (a : arg) (i : nat) (v : V) (g : gmap name var) : gmap name var :=
  match a with AMove (RAlt y) => <[Some y:=cell (i, moved i v)]> g | _ => g end.
Lemma rd_ref_run g k l m i r v : sref m i r = Some v →
  (∀ y c, is_own y r = true → m !! y = Some c → g !! Some y = Some (cell c)) →
  rd_ref i r (World g k l) = Ok v (World g k l).
Proof.
  destruct r as [u|y]; cbn [sref rd_ref]; [by intros [= ->]|]. intros H Hg.
  destruct (m !! y) as [[j u]|] eqn:E; [|done]. destruct (decide (i = j)) as [<-|]; [|done]. injection H as ->.
  eapply st_get_run. rewrite (Hg y (i, v)); [done| |done]. cbn [is_own]. by rewrite bool_decide_eq_true.
Qed.
Lemma rd_refs_run g k l m r : ∀ vs, srefs m r = Some vs →
  (∀ y c, existsb (λ p, is_own y p.2) r = true → m !! y = Some c → g !! Some y = Some (cell c)) →
  rd_refs r (World g k l) = Ok vs (World g k l).
Proof.
  induction r as [|[i a] r IH]; intros vs; cbn [srefs rd_refs]; [by intros [= <-]|].
  destruct (sref m i a) as [v|] eqn:E; [|done]. destruct (srefs m r) as [vs'|]; [|done]. intros [= <-] Hg.
  unfold bind. rewrite (rd_ref_run _ _ _ _ _ _ _ E).
  - rewrite (IH _ eq_refl); [done|]. intros y c Hy. apply Hg. cbn [existsb snd]. by rewrite Hy, orb_true_r.
  - intros y c Hy. apply Hg. cbn [existsb snd]. by rewrite Hy.
Qed.
Lemma declared_safe i a : declared i a = paren_safe i a.
Proof. by destruct a. Qed.
Lemma nothrow_safe i a : nothrow i a = brace_safe i a.
Proof. by destruct a. Qed.
Lemma may_throw_run g k l b : may_throw b (World g k l) =
  if b then Ok tt (World g k l) else if copy_fails k then Exn ElementThrow (World g (S k) l) else Ok tt (World g (S k) l).
Proof. done. Qed.
Lemma new_value_run g k l m i a v m1 : sarg m i a = Some (v, m1) →
  (∀ y c, mentions y a = true → m !! y = Some c → g !! Some y = Some (cell c)) →
  new_value i a (World g k l) =
    if nothrow i a then Ok v (World (touch a i v g) k l)
    else if copy_fails k then Exn ElementThrow (World g (S k) l) else Ok v (World g (S k) l).
Proof.
  intros Ha Hg. destruct a as [r|r|c r]; cbn [sarg new_value mentions] in *.
  - destruct (sref m i r) as [u|] eqn:E; [|done]. injection Ha as <- <-. unfold bind.
    rewrite (rd_ref_run _ _ _ _ _ _ _ E Hg), may_throw_run. destruct (nothrow i (ACopy r)); [done|]. by destruct (copy_fails k).
  - destruct (sref m i r) as [u|] eqn:E; [|done]. injection Ha as <- <-. destruct r as [u'|y]; cbn [sref] in E.
    + by injection E as ->.
    + destruct (m !! y) as [[j u']|] eqn:Ey; [|done]. destruct (decide (i = j)) as [<-|]; [|done]. injection E as ->.
      assert (g !! Some y = Some (Var (Some (i, u)) i)) as Hy.
      { rewrite (Hg y (i, u)); [done| |done]. cbn [is_own]. by rewrite bool_decide_eq_true. }
      unfold bind. by rewrite (st_get_run _ _ _ _ _ _ _ Hy), (st_store_run _ _ _ _ _ _ _ _ Hy).
  - destruct (srefs m r) as [vs|] eqn:E; [|done]. injection Ha as <- <-. unfold bind.
    rewrite (rd_refs_run _ _ _ _ _ _ E Hg), may_throw_run. destruct (nothrow i (AMake c r)); [done|]. by destruct (copy_fails k).
Qed.
Lemma touch_emb m i a v m1 : sarg m i a = Some (v, m1) → touch a i v (emb m) = emb m1.
Proof.
  intros Ha. destruct a as [r|r|c r]; cbn [sarg touch] in *.
  - destruct (sref m i r); [|done]. by injection Ha as <- <-.
  - destruct (sref m i r) as [u|]; [|done]. injection Ha as <- <-. destruct r as [|y]; [done|]. by rewrite emb_insert.
  - destruct (srefs m r); [|done]. by injection Ha as <- <-.
Qed.
Lemma touch_emb_same m i a v m1 : nothrow i a = false → sarg m i a = Some (v, m1) → m1 = m.
Proof.
  intros Hn Ha. destruct a as [r|r|c r]; cbn [sarg nothrow] in *; [|done|].
  - destruct (sref m i r); [|done]. by injection Ha as <- <-.
  - destruct (srefs m r); [|done]. by injection Ha as <- <-.
Qed.
(** arguments refer to existing variants *)
Lemma sarg_mentions m i a v m1 y : sarg m i a = Some (v, m1) → mentions y a = true → is_Some (m !! y).
Proof.
  assert (Hr : ∀ j r u, sref m j r = Some u → is_own y r = true → is_Some (m !! y)).
  { intros j [u'|z] u; cbn [sref is_own]; [done|]. rewrite bool_decide_eq_true. intros H ->.
    destruct (m !! z) as [c|]; [by exists c|done]. }
  intros Ha Hm. destruct a as [r|r|c r]; cbn [sarg mentions] in *.
  - destruct (sref m i r) as [u|] eqn:E; [|done]. by eapply Hr.
  - destruct (sref m i r) as [u|] eqn:E; [|done]. by eapply Hr.
  - destruct (srefs m r) as [vs|] eqn:E; [|done]. clear Ha. revert vs E. induction r as [|[j a] r IH]; intros vs E; [done|].
    cbn [srefs existsb snd] in *. destruct (sref m j a) as [u|] eqn:Ea; [|done]. destruct (srefs m r) as [vs'|] eqn:Er; [|done].
    apply orb_true_iff in Hm as [Hm|Hm]; [by eapply Hr|by eapply IH].
Qed.
Lemma touch_insert p c a i v g : (∀ y, mentions y a = true → Some y ≠ p) →
  touch a i v (<[p:=c]> g) = <[p:=c]> (touch a i v g).
Proof.
  intros H. destruct a as [r|[u|y]|c' r]; try done. cbn [touch]. rewrite insert_commute; [done|]. apply H. cbn [mentions is_own].
  by rewrite bool_decide_eq_true.
Qed.

(** ** Members, on any world *)
Notation ok := (Ok tt).
Lemma destroy_run g k l p i v : g !! p = Some (cell (i, v)) → i < n →
  var_destroy p (World g k l) = ok (World (delete p g) k l).
Proof.
  intros H Hi. unfold var_destroy, noexcept, bind. rewrite (get_type_run _ _ _ _ _ _ H). unfold st_destroy_any.
  cbn [fst]. rewrite dispatch_run by done. rewrite (st_destroy_run _ _ _ _ _ _ _ H).
  rewrite (drop_run _ _ _ _ i) by by rewrite lookup_insert. by rewrite delete_insert_delete.
Qed.
Lemma construct_run g k l p t body : g !! p = None →
  construct_var p t body (World g k l) = on_exn body (drop_var p) (World (<[p:=Var None t]> g) k l).
Proof. intros H. done. Qed.
Lemma drop_new g k l p t : g !! p = None → drop_var p (World (<[p:=Var None t]> g) k l) = ok (World g k l).
Proof. intros H. rewrite (drop_run _ _ _ _ t) by by rewrite lookup_insert. by rewrite delete_insert. Qed.
Lemma new_copy_run g k l p q i v : g !! p = None → g !! q = Some (cell (i, v)) → i < n →
  var_new_copy p q (World g k l) =
    if nothrow_copy i then ok (World (<[p:=cell (i, v)]> g) k l)
    else if copy_fails k then Exn ElementThrow (World g (S k) l) else ok (World (<[p:=cell (i, v)]> g) (S k) l).
Proof.
  intros Hp Hq Hi. unfold var_new_copy, bind at 1. rewrite (get_type_run _ _ _ _ _ _ Hq), construct_run by done.
  cbn [fst]. unfold on_exn, bind at 1. rewrite (get_type_run _ _ _ _ None i) by by rewrite lookup_insert.
  unfold st_assign_copy. rewrite dispatch_run by done. unfold bind.
  rewrite (st_get_run _ _ _ _ _ v i) by (rewrite lookup_insert_ne by congruence; done). rewrite may_throw_run.
  destruct (nothrow_copy i); [|destruct (copy_fails k)].
  - rewrite (st_set_run _ _ _ _ _ _ i) by by rewrite lookup_insert. by rewrite insert_insert.
  - by rewrite drop_new.
  - rewrite (st_set_run _ _ _ _ _ _ i) by by rewrite lookup_insert. by rewrite insert_insert.
Qed.
Lemma assign_move_run g k l p q i v t : p ≠ q → g !! p = Some (Var None t) → g !! q = Some (cell (i, v)) → i < n →
  st_assign_move i p q (World g k l) =
    ok (World (<[p:=Var (Some (i, v)) t]> (<[q:=cell (i, moved i v)]> g)) k l).
Proof.
  intros Hne Hp Hq Hi. unfold st_assign_move, noexcept. rewrite dispatch_run by done. unfold bind.
  rewrite (st_get_run _ _ _ _ _ v i) by done. rewrite (st_store_run _ _ _ _ _ v _ i) by done.
  by rewrite (st_set_run _ _ _ _ _ _ t) by by rewrite lookup_insert_ne.
Qed.
Lemma new_move_run g k l p q i v : g !! p = None → g !! q = Some (cell (i, v)) → i < n →
  var_new_move p q (World g k l) = ok (World (<[p:=cell (i, v)]> (<[q:=cell (i, moved i v)]> g)) k l).
Proof.
  intros Hp Hq Hi. assert (p ≠ q) by congruence.
  unfold var_new_move, noexcept, bind at 1. rewrite (get_type_run _ _ _ _ _ _ Hq), construct_run by done.
  cbn [fst]. unfold on_exn, bind. rewrite (get_type_run _ _ _ _ None i) by by rewrite lookup_insert.
  rewrite (assign_move_run _ _ _ _ _ _ v i); [|done|by rewrite lookup_insert|by rewrite lookup_insert_ne|done].
  do 2 f_equal. mapeq.
Qed.
Lemma new_index_run g k l m p i a v m1 : g !! p = None → sarg m i a = Some (v, m1) →
  (∀ y c, mentions y a = true → m !! y = Some c → g !! Some y = Some (cell c)) →
  var_new_index p i a (World g k l) =
    if nothrow i a then ok (World (<[p:=cell (i, v)]> (touch a i v g)) k l)
    else if copy_fails k then Exn ElementThrow (World g (S k) l) else ok (World (<[p:=cell (i, v)]> g) (S k) l).
Proof.
  intros Hp Ha Hg. unfold var_new_index. rewrite construct_run by done. unfold on_exn, bind.
  assert (Hm : ∀ y, mentions y a = true → Some y ≠ p).
  { intros y Hy <-. destruct (sarg_mentions _ _ _ _ _ _ Ha Hy) as [c Hc]. specialize (Hg y c Hy Hc). by rewrite Hp in Hg. }
  rewrite (new_value_run _ _ _ m i a v m1); [|done|].
  2:{ intros y c Hy Hc. rewrite lookup_insert_ne by (apply not_eq_sym; by apply Hm). by apply Hg. }
  rewrite touch_insert by done. destruct (nothrow i a); [|destruct (copy_fails k)].
  - rewrite (st_set_run _ _ _ _ _ _ i) by by rewrite lookup_insert. by rewrite insert_insert.
  - by rewrite drop_new.
  - rewrite (st_set_run _ _ _ _ _ _ i) by by rewrite lookup_insert. by rewrite insert_insert.
Qed.
Lemma move_assign_run g k l p q i v j u : p ≠ q → g !! p = Some (cell (j, u)) → g !! q = Some (cell (i, v)) → i < n → j < n →
  var_move_assign p q (World g k l) = ok (World (<[p:=cell (i, v)]> (<[q:=cell (i, moved i v)]> g)) k l).
Proof.
  intros Hne Hp Hq Hi Hj. unfold var_move_assign, noexcept. rewrite decide_False by done. unfold bind at 1.
  rewrite (get_type_run _ _ _ _ _ _ Hp). unfold bind at 1, st_destroy_any. cbn [fst]. rewrite dispatch_run by done.
  rewrite (st_destroy_run _ _ _ _ _ _ _ Hp). unfold bind at 1.
  rewrite (get_type_run _ _ _ _ (Some (i, v)) i) by by rewrite lookup_insert_ne. unfold bind.
  rewrite (assign_move_run _ _ _ _ _ _ v j); [|done|by rewrite lookup_insert|by rewrite lookup_insert_ne|done].
  rewrite (get_type_run _ _ _ _ (Some (i, moved i v)) i).
  2:{ rewrite lookup_insert_ne by done. by rewrite lookup_insert. }
  rewrite (set_type_run _ _ _ _ (Some (i, v)) j) by by rewrite lookup_insert.
  do 2 f_equal. mapeq.
Qed.
Lemma copy_assign_run g k l p q i v j u : p ≠ q → g !! None = None → g !! p = Some (cell (j, u)) → g !! q = Some (cell (i, v)) →
  i < n → j < n →
  var_copy_assign p q (World g k l) =
    if nothrow_copy i then ok (World (<[p:=cell (i, v)]> g) k l)
    else if copy_fails k then Exn ElementThrow (World g (S k) l) else ok (World (<[p:=cell (i, v)]> g) (S k) l).
Proof.
  intros Hne Hn Hp Hq Hi Hj. unfold var_copy_assign. rewrite decide_False by done. unfold with_tmp, bind at 1.
  rewrite (new_copy_run _ _ _ _ _ i v) by done.
  assert (p ≠ None) by congruence. assert (q ≠ None) by congruence.
  assert (Hb : ∀ k', bind (on_exn (
      t <- get_type p ;; st_destroy_any t p ;;;
      u <- get_type None ;; st_assign_move u p None ;;;
      s <- get_type q ;; set_type p s) (var_destroy None)) (λ _, var_destroy None) (World (<[None:=cell (i, v)]> g) k' l)
    = ok (World (<[p:=cell (i, v)]> g) k' l)).
  { intros k'. unfold bind at 1, on_exn, bind at 1. rewrite (get_type_run _ _ _ _ (Some (j, u)) j) by by rewrite lookup_insert_ne.
    unfold bind at 1, st_destroy_any. rewrite dispatch_run by done.
    rewrite (st_destroy_run _ _ _ _ _ u j) by by rewrite lookup_insert_ne. unfold bind at 1.
    rewrite (get_type_run _ _ _ _ (Some (i, v)) i) by (rewrite lookup_insert_ne by done; by rewrite lookup_insert).
    unfold bind. rewrite (assign_move_run _ _ _ _ _ i v j); [|done|by rewrite lookup_insert|rewrite lookup_insert_ne by done; by rewrite lookup_insert|done].
    rewrite (get_type_run _ _ _ _ (Some (i, v)) i) by (rewrite !lookup_insert_ne by done; done).
    rewrite (set_type_run _ _ _ _ (Some (i, v)) j) by by rewrite lookup_insert.
    rewrite (destroy_run _ _ _ _ i (moved i v)); [|rewrite !lookup_insert_ne by done; by rewrite lookup_insert|done].
    do 2 f_equal. mapeq. }
  destruct (nothrow_copy i); [apply Hb|]. destruct (copy_fails k); [done|apply Hb].
Qed.
(** variant tmp{...}; *this = std::move(tmp) *)
Lemma via_tmp_run g k l p j u i v init : p ≠ None → g !! p = Some (cell (j, u)) → g !! None = None → i < n → j < n →
  init (World g k l) = ok (World (<[None:=cell (i, v)]> g) k l) →
  with_tmp init (var_move_assign p None) (World g k l) = ok (World (<[p:=cell (i, v)]> g) k l).
Proof.
  intros Hne Hp Hn Hi Hj Hinit. unfold with_tmp, bind. rewrite Hinit. unfold on_exn.
  rewrite (move_assign_run _ _ _ _ _ i v j u); [|done|by rewrite lookup_insert_ne|by rewrite lookup_insert|done..].
  rewrite (destroy_run _ _ _ _ i (moved i v)); [|rewrite lookup_insert_ne by done; by rewrite lookup_insert|done].
  do 2 f_equal. mapeq.
Qed.
Lemma swap_run g k l p q i v j u : p ≠ q → g !! None = None → g !! p = Some (cell (i, v)) → g !! q = Some (cell (j, u)) →
  i < n → j < n →
  var_swap p q (World g k l) = ok (World (<[p:=cell (j, u)]> (<[q:=cell (i, v)]> g)) k l).
Proof.
  intros Hne Hn Hp Hq Hi Hj. assert (p ≠ None) by congruence. assert (q ≠ None) by congruence.
  unfold var_swap, noexcept. rewrite decide_False by done. unfold bind at 1.
  rewrite (get_type_run _ _ _ _ _ _ Hp). unfold bind at 1. rewrite (get_type_run _ _ _ _ _ _ Hq). cbn [fst].
  destruct (Nat.eqb_spec i j) as [<-|Hij].
  - unfold bind at 1. rewrite (get_type_run _ _ _ _ _ _ Hp). cbn [fst]. unfold st_swap, noexcept. rewrite dispatch_run by done.
    unfold bind. rewrite (st_get_run _ _ _ _ _ _ _ Hp), (st_get_run _ _ _ _ _ _ _ Hq), (st_store_run _ _ _ _ _ _ _ _ Hp).
    rewrite (st_store_run _ _ _ _ _ u _ i) by by rewrite lookup_insert_ne. do 2 f_equal. mapeq.
  - unfold std_swap, noexcept, with_tmp, bind at 1. rewrite (new_move_run _ _ _ _ _ i v) by done.
    unfold bind at 1, on_exn, bind at 1.
    rewrite (move_assign_run _ _ _ _ _ j u i (moved i v)); [|done|by rewrite lookup_insert_ne, lookup_insert|by rewrite !lookup_insert_ne|done..].
    rewrite (move_assign_run _ _ _ _ _ i v j (moved j u)); [| |rewrite lookup_insert_ne by done; by rewrite lookup_insert|..|done|done]; [|done|].
    2:{ rewrite !lookup_insert_ne by done. by rewrite lookup_insert. }
    rewrite (destroy_run _ _ _ _ i (moved i v)); [|rewrite !lookup_insert_ne by done; by rewrite lookup_insert|done].
    do 2 f_equal. mapeq.
Qed.

(** ** One call *)
Context (Hcfg : cfg_ok).
Lemma pos_index T i : pos T = Some i → index_of T = i ∧ i < n ∧ alts !! i = Some T.
Proof.
  intros H. pose proof (determine_index_from T alts 0 ltac:(pose proof (ok_few Hcfg); lia)) as Hd. unfold pos in H. rewrite H in Hd.
  apply find_position in H as [H _]. by destruct Hd as [Hd ?].
Qed.
Lemma pos_lookup T i : alts !! i = Some T → pos T = Some i.
Proof.
  intros H. apply find_position. split; [done|]. intros j Hj Hl.
  pose proof (proj1 (validate_unique_nodup alts ltac:(pose proof (ok_few Hcfg); lia)) (ok_unique Hcfg)) as Hnd.
  pose proof (NoDup_lookup _ _ _ _ Hnd H Hl). lia.
Qed.
Lemma pos_none T : pos T = None → index_of T = not_found.
Proof.
  intros H. pose proof (determine_index_from T alts 0 ltac:(pose proof (ok_few Hcfg); lia)) as Hd. unfold pos in H. by rewrite H in Hd.
Qed.
Lemma alt_mutable T i : alts !! i = Some T → remove_const T = T.
Proof.
  intros H. pose proof (ok_mutable Hcfg) as Hm. rewrite Forall_lookup in Hm. specialize (Hm _ _ H).
  destruct T as [c t]. cbn [t_const] in Hm. by subst c.
Qed.

Lemma emb_mentions m a : ∀ y c, mentions y a = true → m !! y = Some c → emb m !! Some y = Some (cell c).
Proof. intros y c _ H. by rewrite emb_Some, H. Qed.
Lemma holds_run g k l x i v T j : g !! x = Some (cell (i, v)) → pos T = Some j →
  var_holds x T (World g k l) = Ok (bool_decide (i = j)) (World g k l).
Proof.
  intros Hx HT. destruct (pos_index _ _ HT) as (Hi & _). unfold var_holds, noexcept, bind.
  rewrite (get_type_run _ _ _ _ _ _ Hx). cbn [fst]. rewrite Hi. unfold ret. do 2 f_equal.
  destruct (Nat.eqb_spec i j); [by rewrite bool_decide_eq_true_2|by rewrite bool_decide_eq_false_2].
Qed.
Lemma get_if_run g k l x i v T j : g !! x = Some (cell (i, v)) → pos T = Some j →
  var_get_if x T (World g k l) = Ok (if decide (i = j) then Some j else None) (World g k l).
Proof.
  intros Hx HT. unfold var_get_if, noexcept, bind. rewrite (holds_run _ _ _ _ _ _ _ _ Hx HT).
  destruct (pos_index _ _ HT) as (Hi & _). rewrite Hi. destruct (decide (i = j)) as [<-|Hne].
  - by rewrite bool_decide_eq_true_2.
  - by rewrite bool_decide_eq_false_2.
Qed.
Lemma get_run g k l x i v T j : g !! x = Some (cell (i, v)) → pos T = Some j →
  var_get x T (World g k l) = if decide (i = j) then Ok v (World g k l) else Exn BadVariantAccess (World g k l).
Proof.
  intros Hx HT. unfold var_get, bind. rewrite (get_if_run _ _ _ _ _ _ _ _ Hx HT). destruct (decide (i = j)) as [<-|]; [|done].
  by eapply st_get_run.
Qed.

Lemma new_index_rep m k l x i a v m1 : m !! x = None → sarg m i a = Some (v, m1) →
  var_new_index (Some x) i a (rep m k l) =
    if nothrow i a then ok (rep (<[x:=(i, v)]> m1) k l)
    else if copy_fails k then Exn ElementThrow (rep m (S k) l) else ok (rep (<[x:=(i, v)]> m1) (S k) l).
Proof.
  intros Hx Ha. unfold rep. rewrite (new_index_run _ _ _ m _ _ _ v m1); [|by rewrite emb_Some, Hx|done|apply emb_mentions].
  rewrite (touch_emb _ _ _ _ _ Ha), emb_insert. destruct (nothrow i a) eqn:E; [done|].
  by rewrite (touch_emb_same _ _ _ _ _ E Ha).
Qed.
(** in terms of a temporary: operator=(T &&) and the second branch of emplace *)
Lemma assign_rep m k l x c T i a v m1 : wf m → m !! x = Some c → pos T = Some i → sarg m i a = Some (v, m1) →
  with_tmp (var_new_value None T a) (var_move_assign (Some x) None) (rep m k l) =
    if nothrow i a then ok (rep (<[x:=(i, v)]> m1) k l)
    else if copy_fails k then Exn ElementThrow (rep m (S k) l) else ok (rep (<[x:=(i, v)]> m1) (S k) l).
Proof.
  intros Hwf Hx HT Ha. destruct (pos_index _ _ HT) as (HI & Hi & _). destruct c as [j u].
  assert (Hv : var_new_value None T a (rep m k l) = if nothrow i a then ok (World (<[None:=cell (i, v)]> (emb m1)) k l)
    else if copy_fails k then Exn ElementThrow (rep m (S k) l) else ok (World (<[None:=cell (i, v)]> (emb m1)) (S k) l)).
  { unfold var_new_value, rep. rewrite HI. rewrite (new_index_run _ _ _ m _ _ _ v m1); [|apply emb_None|done|apply emb_mentions].
    rewrite (touch_emb _ _ _ _ _ Ha). destruct (nothrow i a) eqn:E; [done|]. by rewrite (touch_emb_same _ _ _ _ _ E Ha). }
  assert (Hm1 : ∃ u', m1 !! x = Some (j, u')).
  { destruct a as [r|r|c r]; cbn [sarg] in Ha.
    - destruct (sref m i r); [|done]. injection Ha as <- <-. by exists u.
    - destruct (sref m i r) as [v'|] eqn:E; [|done]. injection Ha as <- <-. destruct r as [|y]; [by exists u|].
      destruct (decide (x = y)) as [->|Hne]; [|rewrite lookup_insert_ne by done; by exists u].
      cbn [sref] in E. rewrite Hx in E. destruct (decide (i = j)) as [<-|]; [|done]. rewrite lookup_insert. by eexists.
    - destruct (srefs m r); [|done]. injection Ha as <- <-. by exists u. }
  destruct Hm1 as [u' Hm1].
  assert (Hgo : ∀ k', (init <- ret tt ;; with_tmp (λ w, ok (World (<[None:=cell (i, v)]> (objs w)) (ncopy w) (visits w))) (var_move_assign (Some x) None)) (rep m1 k' l)
     = ok (rep (<[x:=(i, v)]> m1) k' l)).
  { intros k'. unfold bind at 1, ret. unfold rep. rewrite (via_tmp_run _ _ _ _ j u' i v); [by rewrite emb_insert|done|by rewrite emb_Some, Hm1|apply emb_None|done|by eapply Hwf|done]. }
  unfold with_tmp, bind at 1. rewrite Hv. destruct (nothrow i a) eqn:E.
  - exact (Hgo k).
  - destruct (copy_fails k); [done|]. exact (Hgo (S k)).
Qed.
Lemma emplace_rep m k l x c T i a v m1 : wf m → m !! x = Some c → pos T = Some i → sarg m i a = Some (v, m1) →
  declared i a && (mentions x a || negb (nothrow i a)) = false →
  var_emplace (Some x) T a (rep m k l) =
    if nothrow i a then Ok v (rep (<[x:=(i, v)]> m1) k l)
    else if copy_fails k then Exn ElementThrow (rep m (S k) l) else Ok v (rep (<[x:=(i, v)]> m1) (S k) l).
Proof.
  intros Hwf Hx HT Ha Hal. destruct (pos_index _ _ HT) as (HI & Hi & HTi). unfold var_emplace. rewrite HI.
  assert (Hget : ∀ k', var_get (Some x) T (rep (<[x:=(i, v)]> m1) k' l) = Ok v (rep (<[x:=(i, v)]> m1) k' l)).
  { intros k'. unfold rep. rewrite (get_run _ _ _ _ i v _ i); [by rewrite decide_True|by rewrite emb_Some, lookup_insert|done]. }
  destruct (declared i a) eqn:D; cbn [andb] in Hal.
  - rewrite (alt_mutable _ _ HTi), HI. destruct c as [j u].
    apply orb_false_iff in Hal as [Hal E]. apply negb_false_iff in E.
    assert (Hm : ∀ y, mentions y a = true → Some y ≠ Some x) by congruence.
    pose proof (emb_at _ _ _ _ Hx) as Hg. unfold bind, rep.
    assert (Hj : j < n) by by eapply Hwf.
    rewrite (get_type_run _ _ _ _ _ _ Hg). unfold st_destroy_any. rewrite dispatch_run by done.
    rewrite (st_destroy_run _ _ _ _ _ _ _ Hg). unfold st_emplace. rewrite dispatch_run by done. unfold bind.
    rewrite (new_value_run _ _ _ m i a v m1); [|done|].
    2:{ intros y c Hy Hc. rewrite lookup_insert_ne by (apply not_eq_sym; by apply Hm). by rewrite emb_Some, Hc. }
    rewrite E. rewrite (touch_insert _ _ _ _ _ _ Hm).
    rewrite (st_set_run _ _ _ _ _ _ j) by by rewrite lookup_insert.
    rewrite (set_type_run _ _ _ _ (Some (i, v)) j) by by rewrite lookup_insert.
    rewrite !insert_insert, (touch_emb _ _ _ _ _ Ha). specialize (Hget k). unfold rep in Hget |- *. rewrite emb_insert in Hget |- *. exact Hget.
  - unfold bind. rewrite (assign_rep _ _ _ _ _ _ _ _ _ _ Hwf Hx HT Ha). destruct (nothrow i a); [apply Hget|].
    destruct (copy_fails k); [done|]. apply Hget.
Qed.

Theorem vexec_rep o m k l : wf m →
  match sstep o m with
  | Bad => True
  | Throws e => vexec o (rep m k l) = Exn e (rep m k l)
  | Done r m' None => vexec o (rep m k l) = Ok r (rep m' k (l ++ svisits o m))
  | Done r m' (Some mf) =>
      vexec o (rep m k l) = if copy_fails k then Exn ElementThrow (rep mf (S k) l) else Ok r (rep m' (S k) l)
  end.
Proof.
  intros Hwf.
  assert (Hatt : ∀ (act : M world unit) (safe : bool) m', act (rep m k l) = (if safe then ok (rep m' k l)
    else if copy_fails k then Exn ElementThrow (rep m (S k) l) else ok (rep m' (S k) l)) → ∀ l', l' = [] →
    match attempt m safe BUnit m' with
    | Bad => True
    | Throws e => obs (λ _, BUnit) act (rep m k l) = Exn e (rep m k l)
    | Done r m' None => obs (λ _, BUnit) act (rep m k l) = Ok r (rep m' k (l ++ l'))
    | Done r m' (Some mf) =>
        obs (λ _, BUnit) act (rep m k l) = if copy_fails k then Exn ElementThrow (rep mf (S k) l) else Ok r (rep m' (S k) l)
    end).
  { intros act safe m' Hact l' ->. unfold attempt, obs, bind. rewrite Hact. destruct safe; [by rewrite app_nil_r|]. by destruct (copy_fails k). }
  assert (Hnew : ∀ (act : M world unit) x i a, act = var_new_index (Some x) i a → ∀ l', l' = [] →
    match snew m x i a with
    | Bad => True
    | Throws e => obs (λ _, BUnit) act (rep m k l) = Exn e (rep m k l)
    | Done r m' None => obs (λ _, BUnit) act (rep m k l) = Ok r (rep m' k (l ++ l'))
    | Done r m' (Some mf) =>
        obs (λ _, BUnit) act (rep m k l) = if copy_fails k then Exn ElementThrow (rep mf (S k) l) else Ok r (rep m' (S k) l)
    end).
  { intros act x i a -> l' Hl'. unfold snew. destruct (decide (i < n)); [|done]. destruct (m !! x) eqn:Hx; [done|].
    destruct (sarg m i a) as [[v m1]|] eqn:Ha; [|done]. apply Hatt; [|done]. by apply new_index_rep. }
  assert (Hemp : ∀ (act : M world V) T x i a, pos T = Some i → act (rep m k l) = var_emplace (Some x) T a (rep m k l) → ∀ l', l' = [] →
    match semplace m x i a with
    | Bad => True
    | Throws e => obs BVal act (rep m k l) = Exn e (rep m k l)
    | Done r m' None => obs BVal act (rep m k l) = Ok r (rep m' k (l ++ l'))
    | Done r m' (Some mf) =>
        obs BVal act (rep m k l) = if copy_fails k then Exn ElementThrow (rep mf (S k) l) else Ok r (rep m' (S k) l)
    end).
  { intros act T x i a HT Hact l' ->. unfold semplace. destruct (decide (i < n)); [|done].
    rewrite <-declared_safe, <-nothrow_safe. destruct (declared i a && (mentions x a || negb (nothrow i a))) eqn:E; [done|].
    destruct (m !! x) as [c|] eqn:Hx; [|done]. destruct (sarg m i a) as [[v m1]|] eqn:Ha; [|done].
    unfold attempt, obs, bind. rewrite Hact, (emplace_rep _ _ _ _ _ _ _ _ _ _ Hwf Hx HT Ha E).
    destruct (nothrow i a); [by rewrite app_nil_r|]. by destruct (copy_fails k). }
  destruct o as [x|x y|x y|x T a|x i a|x|x y|x y|x T a|x T a|x i a|x y|x T|x T|x T|x T|x T v|x f]; cbn [sstep vexec].
  - by apply Hnew.
  - destruct (m !! x) eqn:Hx; [done|]. destruct (m !! y) as [[i v]|] eqn:Hy; [|done]. apply Hatt; [|done]. unfold rep.
    rewrite (new_copy_run _ _ _ _ _ i v); [by rewrite emb_insert|by rewrite emb_Some, Hx|by rewrite emb_Some, Hy|by eapply Hwf].
  - destruct (m !! x) eqn:Hx; [done|]. destruct (m !! y) as [[i v]|] eqn:Hy; [|done]. unfold obs, bind, rep.
    rewrite (new_move_run _ _ _ _ _ i v); [by rewrite !emb_insert, app_nil_r|by rewrite emb_Some, Hx|by rewrite emb_Some, Hy|by eapply Hwf].
  - destruct (pos T) as [i|] eqn:HT; [|done]. destruct (pos_index _ _ HT) as (HI & _). apply Hnew; [|done]. unfold var_new_value. by rewrite HI.
  - by apply Hnew.
  - destruct (m !! x) as [[i v]|] eqn:Hx; [|done]. unfold obs, bind, rep.
    rewrite (destroy_run _ _ _ _ i v); [by rewrite emb_delete, app_nil_r|by rewrite emb_Some, Hx|by eapply Hwf].
  - destruct (m !! x) as [[j u]|] eqn:Hx; [|done]. destruct (m !! y) as [[i v]|] eqn:Hy; [|done]. destruct (decide (x = y)) as [->|Hne].
    + unfold obs, var_copy_assign, bind. rewrite decide_True by done. unfold get_var. cbn [objs rep]. rewrite emb_Some, Hy. by rewrite app_nil_r.
    + apply Hatt; [|done]. unfold rep.
      rewrite (copy_assign_run _ _ _ _ _ i v j u); [by rewrite emb_insert|congruence|apply emb_None|by rewrite emb_Some, Hx|by rewrite emb_Some, Hy|by eapply Hwf..].
  - destruct (m !! x) as [[j u]|] eqn:Hx; [|done]. destruct (m !! y) as [[i v]|] eqn:Hy; [|done]. destruct (decide (x = y)) as [->|Hne].
    + unfold obs, var_move_assign, noexcept, bind. rewrite decide_True by done. unfold get_var. cbn [objs rep]. rewrite emb_Some, Hy. by rewrite app_nil_r.
    + unfold obs, bind, rep.
      rewrite (move_assign_run _ _ _ _ _ i v j u); [by rewrite !emb_insert, app_nil_r|congruence|by rewrite emb_Some, Hx|by rewrite emb_Some, Hy|by eapply Hwf..].
  - destruct (pos T) as [i|] eqn:HT; [|done]. destruct (m !! x) as [c|] eqn:Hx; [|done]. destruct (sarg m i a) as [[v m1]|] eqn:Ha; [|done].
    apply Hatt; [|done]. by eapply assign_rep.
  - destruct (pos T) as [i|] eqn:HT; [|done]. by apply (Hemp _ T).
  - destruct (decide (i < n)) as [Hi|]; [|unfold semplace; by rewrite decide_False].
    destruct (lookup_lt_is_Some_2 _ _ Hi) as [T HT]. apply (Hemp _ T); [by apply pos_lookup| |done].
    unfold var_emplace_index. by rewrite determine_type_lookup, HT.
  - destruct (m !! x) as [[i v]|] eqn:Hx; [|done]. destruct (m !! y) as [[j u]|] eqn:Hy; [|done]. destruct (decide (x = y)) as [->|Hne].
    + unfold obs, var_swap, noexcept, bind. rewrite decide_True by done. unfold get_var. cbn [objs rep]. rewrite emb_Some, Hy. cbn.
      rewrite app_nil_r. simplify_eq. by rewrite insert_insert, insert_id.
    + unfold obs, bind, rep.
      rewrite (swap_run _ _ _ _ _ i v j u); [by rewrite !emb_insert, app_nil_r|congruence|apply emb_None|by rewrite emb_Some, Hx|by rewrite emb_Some, Hy|by eapply Hwf..].
  - destruct (m !! x) as [[i v]|] eqn:Hx; [|done]. destruct (pos T) as [j|] eqn:HT; [|done]. unfold obs, bind, rep.
    rewrite (holds_run _ _ _ _ i v T j); [by rewrite app_nil_r|by rewrite emb_Some, Hx|done].
  - destruct (m !! x) as [[i v]|] eqn:Hx; [|done]. destruct (pos T) as [j|] eqn:HT; [|done]. unfold obs, bind, rep.
    rewrite (get_if_run _ _ _ _ i v T j); [by rewrite app_nil_r|by rewrite emb_Some, Hx|done].
  - destruct (m !! x) as [[i v]|] eqn:Hx; [|done]. destruct (pos T) as [j|] eqn:HT; [|done]. unfold obs, bind, rep.
    rewrite (get_run _ _ _ _ i v T j); [|by rewrite emb_Some, Hx|done]. destruct (decide (i = j)); [by rewrite app_nil_r|done].
  - destruct (m !! x) as [[i v]|] eqn:Hx; [|done]. destruct (pos T) as [j|] eqn:HT; [|done]. unfold obs, var_take, bind, rep.
    rewrite (get_if_run _ _ _ _ i v T j); [|by rewrite emb_Some, Hx|done]. destruct (decide (i = j)) as [<-|]; [|done].
    rewrite (st_get_run _ _ _ _ _ v i) by by rewrite emb_Some, Hx. rewrite (st_store_run _ _ _ _ _ v _ i) by by rewrite emb_Some, Hx.
    rewrite app_nil_r. by rewrite emb_insert.
  - destruct (m !! x) as [[i u]|] eqn:Hx; [|done]. destruct (pos T) as [j|] eqn:HT; [|done]. unfold obs, var_write, bind, rep.
    rewrite (get_if_run _ _ _ _ i u T j); [|by rewrite emb_Some, Hx|done]. destruct (decide (i = j)) as [<-|]; [|done].
    rewrite (st_store_run _ _ _ _ _ u _ i) by by rewrite emb_Some, Hx. rewrite app_nil_r. by rewrite emb_insert.
  - cbn [svisits]. destruct (m !! x) as [[i v]|] eqn:Hx; [|done]. unfold obs, var_visit, bind, rep.
    rewrite (get_type_run _ _ _ _ (Some (i, v)) i) by by rewrite emb_Some, Hx. unfold st_visit. rewrite dispatch_run by by eapply Hwf.
    unfold bind. rewrite (st_get_run _ _ _ _ _ v i) by by rewrite emb_Some, Hx. unfold log_visit. cbn [objs ncopy visits].
    rewrite (st_store_run _ _ _ _ _ v _ i) by by rewrite emb_Some, Hx. by rewrite emb_insert.
Qed.

Lemma wf_insert m x i v : wf m → i < n → wf (<[x:=(i, v)]> m).
Proof.
  intros Hwf Hi y j u. rewrite insert_case. case_decide; [intros [= <- <-]; done|apply Hwf].
Qed.
Lemma wf_sarg m i a v m1 : wf m → sarg m i a = Some (v, m1) → i < n → wf m1.
Proof.
  intros Hwf Ha Hi. destruct a as [r|r|c r]; cbn [sarg] in Ha.
  - destruct (sref m i r); [|done]. by injection Ha as <- <-.
  - destruct (sref m i r); [|done]. injection Ha as <- <-. destruct r; [done|]. by apply wf_insert.
  - destruct (srefs m r); [|done]. by injection Ha as <- <-.
Qed.
(** a failing call leaves the state unchanged *)
Lemma sstep_failing o m r m' mf : sstep o m = Done r m' (Some mf) → mf = m.
Proof.
  assert (Hatt : ∀ safe r1 m1, attempt m safe r1 m1 = Done r m' (Some mf) → mf = m).
  { intros safe r1 m1. unfold attempt. destruct safe; [done|]. by intros [= _ _ <-]. }
  intros H. destruct o as [x|x y|x y|x T a|x i a|x|x y|x y|x T a|x T a|x i a|x y|x T|x T|x T|x T|x T v|x f]; cbn [sstep] in H; unfold snew, semplace in H;
    repeat match type of H with
           | Bad = _ => discriminate H
           | Throws _ = _ => discriminate H
           | Done _ _ None = _ => discriminate H
           | attempt _ _ _ _ = _ => by eapply Hatt
           | context [match ?b with _ => _ end] => destruct b eqn:?
           end.
Qed.
Lemma sstep_wf o m r m' f : wf m → sstep o m = Done r m' f → wf m'.
Proof.
  intros Hwf H.
  assert (Hatt : ∀ safe r1 m1, attempt m safe r1 m1 = Done r m' f → wf m1 → wf m').
  { intros safe r1 m1. unfold attempt. by intros [= _ <- _]. }
  assert (Hpos : ∀ T i, pos T = Some i → i < n) by (intros T i HT; by apply pos_index in HT as (_ & ? & _)).
  destruct o as [x|x y|x y|x T a|x i a|x|x y|x y|x T a|x T a|x i a|x y|x T|x T|x T|x T|x T v|x g]; cbn [sstep] in H; unfold snew, semplace in H;
    repeat match type of H with
           | Bad = _ => discriminate H
           | Throws _ = _ => discriminate H
           | attempt _ _ _ _ = _ => apply Hatt in H; [done|]; clear H
           | Done _ _ _ = _ => injection H as _ <- _
           | context [match ?b with _ => _ end] => destruct b eqn:?
           end; subst; repeat match goal with p : (nat * _)%type |- _ => destruct p as [? ?] end;
    repeat apply wf_insert; eauto using wf_sarg.
  intros y i' v'. rewrite delete_case. case_decide; [done|apply Hwf].
Qed.

(** ** Histories *)
Lemma svisits_other o m : (∃ e, sstep o m = Throws e) ∨ (∃ r m' mf, sstep o m = Done r m' (Some mf)) → svisits o m = [].
Proof.
  intros H. destruct o as [x|x y|x y|x T a|x i a|x|x y|x y|x T a|x T a|x i a|x y|x T|x T|x T|x T|x T v|x g]; cbn [svisits]; try done.
  cbn [sstep] in H. destruct (m !! x) as [[i v]|]; [|done]. by destruct H as [(? & ?)|(? & ? & ? & ?)].
Qed.
Lemma vrun_rep os : ∀ m k l rs m' k' l', wf m → srun os m k l = Some (rs, m', k', l') →
  vrun os (rep m k l) = Finished rs (rep m' k' l') ∧ wf m'.
Proof.
  induction os as [|o os IH]; intros m k l rs m' k' l' Hwf; cbn [srun vrun]; [by intros [= <- <- <- <-]|].
  pose proof (vexec_rep o m k l Hwf) as H. pose proof (svisits_other o m) as Hv. pose proof (sstep_failing o m) as Hf.
  pose proof (λ r m' f, sstep_wf o m r m' f Hwf) as Hw.
  destruct (sstep o m) as [|r m1 [mf|]|e]; [done| | |].
  - rewrite H. rewrite (Hv ltac:(right; by eexists _, _, _)), app_nil_r. specialize (Hf _ _ _ eq_refl). subst mf.
    destruct (copy_fails k).
    + destruct (srun os m (S k) l) as [[[[rs1 m2] k2] l2]|] eqn:E; [|done]. intros [= <- <- <- <-].
      destruct (IH _ _ _ _ _ _ _ Hwf E) as [-> ?]. done.
    + destruct (srun os m1 (S k) l) as [[[[rs1 m2] k2] l2]|] eqn:E; [|done]. intros [= <- <- <- <-].
      destruct (IH _ _ _ _ _ _ _ (Hw _ _ _ eq_refl) E) as [-> ?]. done.
  - rewrite H. destruct (srun os m1 k (l ++ svisits o m)) as [[[[rs1 m2] k2] l2]|] eqn:E; [|done]. intros [= <- <- <- <-].
    destruct (IH _ _ _ _ _ _ _ (Hw _ _ _ eq_refl) E) as [-> ?]. done.
  - rewrite H. rewrite (Hv ltac:(left; by eexists)), app_nil_r. destruct (srun os m k l) as [[[[rs1 m2] k2] l2]|] eqn:E; [|done]. intros [= <- <- <- <-].
    destruct (IH _ _ _ _ _ _ _ Hwf E) as [-> ?]. done.
Qed.
Lemma rep_init : rep ∅ 0 [] = init_world.
Proof. unfold rep, emb, init_world. by rewrite fmap_empty, kmap_empty. Qed.
Lemma wf_empty : wf ∅.
Proof. intros x i v. by rewrite lookup_empty. Qed.
Lemma rep_shows m k l : wf m → shows (rep m k l) m.
Proof.
  intros Hwf. split; [|split].
  - intros x i v Hx. split; [by eapply Hwf|]. intros j T HT. apply pos_lookup in HT. unfold rep.
    rewrite (holds_run _ _ _ _ i v T j), (get_run _ _ _ _ i v T j); try done; by rewrite emb_Some, Hx.
  - intros x Hx. cbn [objs rep]. by rewrite emb_Some, Hx.
  - apply emb_None.
Qed.
Lemma reachable_rep w m : reachable w m → ∃ k l, w = rep m k l ∧ wf m.
Proof.
  intros (os & rs & k & l & Hs & Ho). exists k, l. destruct (vrun_rep _ _ _ _ _ _ _ _ wf_empty Hs) as [H ?].
  rewrite rep_init, Ho in H. by injection H.
Qed.

(** ** Comparisons *)
Lemma compare_run ops g k l p q i u v f : g !! p = Some (cell (i, u)) → g !! q = Some (cell (i, v)) → i < n →
  st_compare ops i p q f (World g k l) = Ok (f (ops i u v)) (World g k l).
Proof.
  intros Hp Hq Hi. unfold st_compare, noexcept. rewrite dispatch_run by done. unfold bind.
  by rewrite (st_get_run _ _ _ _ _ _ _ Hp), (st_get_run _ _ _ _ _ _ _ Hq).
Qed.
Lemma var_six_rep ops m k l x y a b : wf m → m !! x = Some a → m !! y = Some b →
  (λ f : M world bool, f (rep m k l)) <$> var_six ops x y = (λ r, Ok r (rep m k l)) <$> answer_list (tag_six ops a b).
Proof.
  intros Hwf Hx Hy. destruct a as [i u], b as [j v]. pose proof (emb_at _ _ _ _ Hx) as Ex. pose proof (emb_at _ _ _ _ Hy) as Ey.
  unfold var_six, rep, var_lt, var_le, var_gt, var_ge, var_eq, var_ne, noexcept, bind, tag_six. cbn [fmap list_fmap fst snd].
  rewrite !(get_type_run _ _ _ _ _ _ Ex), !(get_type_run _ _ _ _ _ _ Ey).
  destruct (Nat.compare_spec i j) as [<-|Hlt|Hgt].
  - rewrite Nat.eqb_refl, Nat.ltb_irrefl. cbn [negb]. by rewrite !(compare_run _ _ _ _ _ _ _ u v) by (done || by eapply Hwf).
  - rewrite (proj2 (Nat.ltb_lt i j)), (proj2 (Nat.ltb_ge j i)), (proj2 (Nat.eqb_neq i j)) by lia. done.
  - rewrite (proj2 (Nat.ltb_lt j i)), (proj2 (Nat.ltb_ge i j)), (proj2 (Nat.eqb_neq i j)) by lia. done.
Qed.
End proofs.
