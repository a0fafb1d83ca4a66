(** Theorems about NewModel.v: are values constructed in the storage of the object that holds them? *)
From stdpp Require Import prelude gmap.
From Verif Require Import NewModel.

(** ** Specification *)
(** the operator new that new(p) Type{...} calls is there and returns p *)
Definition own_storage (T : ElemType) : Prop :=
  match member_new with None => True | Some None => False | Some (Some f) => ∀ p, f p = Some p end.
(** the value an optional has, as a reader sees it *)
Definition value `{T : ElemType} (o : opt) (m : gmap nat V) : option V :=
  if o_initialized o then m !! o_val o else None.
(** an optional says it has a value exactly if there is an object in its storage *)
Definition sound `{T : ElemType} (o : opt) (m : gmap nat V) : Prop :=
  o_initialized o = true ↔ is_Some (m !! o_val o).
(** [vs] are at [p] and what follows, nothing else changed *)
Definition built `{T : ElemType} (p : nat) (vs : list V) (m m' : gmap nat V) : Prop :=
  ∀ q, m' !! q = if decide (p ≤ q < p + length vs) then vs !! (q - p) else m !! q.

Section props.
Context `{T : ElemType}.
Implicit Types (v : V) (m : gmap nat V).

Lemma new_own p v : own_storage T → new_at p v = put p v.
Proof.
  unfold own_storage, new_at. destruct member_new as [[f|]|]; [|done|done]. by intros ->.
Qed.
Lemma instantiate_own {A} (x : M A) : own_storage T → instantiate x = x.
Proof. unfold own_storage, instantiate, new_compiles. by destruct member_new as [[]|]. Qed.
Lemma put_free p v m : m !! p = None → put p v m = Done tt (<[p:=v]> m).
Proof. unfold put. by intros ->. Qed.
Lemma built_one p v m : built p [v] m (<[p:=v]> m).
Proof.
  intros q. cbn [length]. case_decide as D.
  - assert (q = p) as -> by lia. by rewrite lookup_insert, Nat.sub_diag.
  - rewrite lookup_insert_ne; [done|lia].
Qed.

Ltac run H := rewrite ?instantiate_own by exact H; unfold value_of, bind, ret, rd, store, destroy; cbv beta iota;
  cbn [o_initialized o_val];
  repeat (match goal with E : _ !! _ = Some _ |- _ => rewrite E end);
  rewrite ?new_own by exact H.

(** ** C99 *)
Theorem C99_optional_partial x m : own_storage T → m !! x = None →
  (∀ v, ∃ m', opt_construct x (Copy v) m = Done (Opt x true) m' ∧ built x [v] m m') ∧
  (∀ q v, m !! q = Some v →
    ∃ m', opt_construct x (Move q) m = Done (Opt x true) m' ∧ built x [v] (<[q:=moved v]> m) m') ∧
  (∀ y v, value y m = Some v →
    ∃ m', opt_copy x y m = Done (Opt x true) m' ∧ built x [v] m m') ∧
  (∀ y v, value y m = Some v →
    ∃ m', opt_move x y m = Done (Opt x true) m' ∧ built x [v] (<[o_val y:=moved v]> m) m') ∧
  (∀ v, ∃ m', opt_assign (Opt x false) (Copy v) m = Done (Opt x true) m' ∧ built x [v] m m') ∧
  (∀ q v, m !! q = Some v →
    ∃ m', opt_assign (Opt x false) (Move q) m = Done (Opt x true) m' ∧ built x [v] (<[q:=moved v]> m) m').
Proof.
  intros H F.
  assert (∀ q v w, m !! q = Some w → <[q:=v]> m !! x = None) as F'.
  { intros q v w E. rewrite lookup_insert_ne; [done|]. intros ->. congruence. }
  unfold value. repeat split.
  - intros v. exists (<[x:=v]> m). split; [|apply built_one]. unfold opt_construct. run H.
    by rewrite put_free.
  - intros q v E. eexists. split; [|apply built_one]. unfold opt_construct. run H.
    by rewrite put_free by eauto.
  - intros [y []] v E; [|done]. cbn [o_initialized o_val] in E. eexists. split; [|apply built_one].
    unfold opt_copy. run H. by rewrite put_free.
  - intros [y []] v E; [|done]. cbn [o_initialized o_val] in E. eexists. split; [|apply built_one].
    unfold opt_move. run H. by rewrite put_free by eauto.
  - intros v. exists (<[x:=v]> m). split; [|apply built_one]. unfold opt_assign. run H.
    by rewrite put_free.
  - intros q v E. eexists. split; [|apply built_one]. unfold opt_assign. run H.
    by rewrite put_free by eauto.
Qed.

(** nothing is constructed where there is nothing to copy or to move, with any operator new that can be called *)
Theorem C99_empty_partial x y m : member_new ≠ Some None → o_initialized y = false →
  opt_copy x y m = Done (Opt x false) m ∧ opt_move x y m = Done (Opt x false) m.
Proof.
  intros H E. unfold opt_copy, opt_move, instantiate, new_compiles. rewrite E.
  destruct member_new as [[f|]|]; [by split|by destruct H|by split].
Qed.
(** an optional that has a value is assigned to where that is, with any operator new that can be called *)
Theorem C99_assign_held_partial x m w : member_new ≠ Some None → m !! x = Some w →
  (∀ v, opt_assign (Opt x true) (Copy v) m = Done (Opt x true) (<[x:=v]> m)) ∧
  (∀ q v, q ≠ x → m !! q = Some v →
    opt_assign (Opt x true) (Move q) m = Done (Opt x true) (<[x:=v]> (<[q:=moved v]> m))).
Proof.
  intros H F.
  assert (new_compiles = true) as C by (unfold new_compiles; by destruct member_new as [[]|]).
  split.
  - intros v. unfold opt_assign, instantiate. rewrite C. cbn [value_of o_initialized o_val]. unfold bind, ret, store. cbn [o_val]. by rewrite F.
  - intros q v N E. unfold opt_assign, instantiate. rewrite C. cbn [value_of o_initialized]. unfold bind, ret, store, rd. cbn [o_val].
    rewrite !E. rewrite lookup_insert_ne by done. by rewrite F.
Qed.

Theorem C99_swap_partial x y m : own_storage T → o_val x ≠ o_val y → sound x m → sound y m →
  ∃ x' y' m', opt_swap x y m = Done (x', y') m' ∧
    o_val x' = o_val x ∧ o_val y' = o_val y ∧ sound x' m' ∧ sound y' m' ∧
    value x' m' = value y m ∧ value y' m' = value x m ∧
    ∀ q, q ≠ o_val x → q ≠ o_val y → m' !! q = m !! q.
Proof.
  intros H N SX SY. destruct x as [x i], y as [y j]. unfold sound, value in *.
  cbn [o_val o_initialized] in *.
  assert (∀ (b : bool) p, (b = true ↔ is_Some (m !! p)) → if b then ∃ v, m !! p = Some v else m !! p = None) as G.
  { intros [] p S; [by destruct S as [S _]; destruct (S eq_refl) as [v ?]; exists v|].
    destruct (m !! p) eqn:E; [|done]. destruct S as [_ S]. by discriminate S; eauto. }
  apply G in SX, SY. clear G.
  unfold opt_swap. destruct i, j; cbn [o_val o_initialized] in *.
  - destruct SX as [u EX], SY as [v EY]. run H. rewrite lookup_insert_ne by done. rewrite EY.
    do 3 eexists. split; [reflexivity|]. cbn [o_val o_initialized].
    split_and!; try done.
    + rewrite lookup_insert_ne, lookup_insert by done. by split; eauto.
    + rewrite lookup_insert. by split; eauto.
    + by rewrite lookup_insert_ne, lookup_insert by done.
    + by rewrite lookup_insert.
    + intros q ??. by rewrite !lookup_insert_ne.
  - destruct SX as [u EX]. run H. rewrite put_free by by rewrite lookup_insert_ne.
    rewrite lookup_insert_ne, lookup_insert by done.
    do 3 eexists. split; [reflexivity|]. cbn [o_val o_initialized].
    split_and!; try done.
    + rewrite lookup_delete. split; [done|by intros []].
    + rewrite lookup_delete_ne, lookup_insert by done. by split; eauto.
    + by rewrite lookup_delete_ne, lookup_insert by done.
    + intros q ??. by rewrite lookup_delete_ne, !lookup_insert_ne.
  - destruct SY as [u EY]. run H. rewrite put_free by by rewrite lookup_insert_ne.
    rewrite lookup_insert_ne, lookup_insert by done.
    do 3 eexists. split; [reflexivity|]. cbn [o_val o_initialized].
    split_and!; try done.
    + rewrite lookup_delete_ne, lookup_insert by done. by split; eauto.
    + rewrite lookup_delete. split; [done|by intros []].
    + by rewrite lookup_delete_ne, lookup_insert by done.
    + intros q ??. by rewrite lookup_delete_ne, !lookup_insert_ne.
  - run H. do 3 eexists. split; [reflexivity|]. cbn [o_val o_initialized]. rewrite SX, SY.
    split_and!; try done; (split; [done|by intros []]).
Qed.

Theorem C99_elements_partial p m : own_storage T → m !! p = None →
  (∀ v, ∃ m', var_set p (Copy v) m = Done tt m' ∧ built p [v] m m') ∧
  (∀ q v, m !! q = Some v → ∃ m', var_set p (Move q) m = Done tt m' ∧ built p [v] (<[q:=moved v]> m) m') ∧
  (∀ v, ∃ m', vec_emplace p (Copy v) m = Done tt m' ∧ built p [v] m m') ∧
  (∀ q v, m !! q = Some v → ∃ m', vec_emplace p (Move q) m = Done tt m' ∧ built p [v] (<[q:=moved v]> m) m').
Proof.
  intros H F.
  assert (∀ q v w, m !! q = Some w → <[q:=v]> m !! p = None) as F'.
  { intros q v w E. rewrite lookup_insert_ne; [done|]. intros ->. congruence. }
  unfold var_set, vec_emplace.
  split_and!; intros *; try intros E; eexists; (split; [|apply built_one]); run H;
    rewrite put_free by eauto; done.
Qed.

(** whatever the element type declares *)
Theorem C99_algorithms p vs m : (∀ q, p ≤ q < p + length vs → m !! q = None) →
  ∃ m', vec_fill p vs m = Done tt m' ∧ built p vs m m'.
Proof.
  unfold vec_fill. revert p m. induction vs as [|v vs IH]; intros p m F.
  - exists m. split; [done|]. intros q. cbn [length]. rewrite decide_False by lia. done.
  - cbn [uninitialized length] in *. unfold bind. rewrite put_free by (apply F; lia).
    destruct (IH (S p) (<[p:=v]> m)) as (m' & -> & B).
    { intros q D. rewrite lookup_insert_ne by lia. apply F. lia. }
    exists m'. split; [done|]. intros q. rewrite B. cbn [length].
    destruct (decide (q = p)) as [->|N].
    + rewrite decide_False, lookup_insert, decide_True, Nat.sub_diag by lia. done.
    + case_decide as D.
      * rewrite decide_True by lia. replace (q - p) with (S (q - S p)) by lia. done.
      * rewrite decide_False, lookup_insert_ne by lia. done.
Qed.

(** the hypothesis of the partial theorems cannot be weakened *)
Theorem C99_exact v : (∀ x m, m !! x = None →
    ∃ m', opt_construct x (Copy v) m = Done (Opt x true) m' ∧ built x [v] m m') ↔ own_storage T.
Proof.
  split; [|by intros H x m F; destruct (C99_optional_partial x m H F) as [? _]].
  intros C. unfold own_storage. destruct member_new as [[f|]|] eqn:E; [|..|done].
  - intros p. destruct (C p ∅) as (m' & D & B); [done|]. specialize (B p). cbn [length] in B.
    rewrite decide_True, Nat.sub_diag in B by lia. cbn in B.
    unfold opt_construct, instantiate, new_compiles, bind, value_of, ret, new_at in D. rewrite E in D.
    destruct (f p) as [q|].
    + rewrite put_free in D by done. injection D as <-. destruct (decide (q = p)) as [->|N]; [done|].
      by rewrite lookup_insert_ne in B.
    + by injection D as <-.
  - destruct (C 0 ∅) as (m' & D & _); [done|].
    unfold opt_construct, instantiate, new_compiles in D. by rewrite E in D.
Qed.

(** with an operator new that cannot be called none of these compile, whatever they would do; the rest of vector is fine *)
Theorem C99_refuted_compile m : member_new = Some None →
  (∀ x a, opt_construct x a m = NoCompile) ∧ (∀ x y, opt_copy x y m = NoCompile) ∧
  (∀ x y, opt_move x y m = NoCompile) ∧ (∀ o a, opt_assign o a m = NoCompile) ∧
  (∀ x y, opt_swap x y m = NoCompile) ∧ (∀ x a, var_set x a m = NoCompile) ∧ (∀ x a, vec_emplace x a m = NoCompile).
Proof.
  intros E. unfold opt_construct, opt_copy, opt_move, opt_assign, opt_swap, var_set, vec_emplace, instantiate, new_compiles.
  by rewrite E.
Qed.

(** with one that returns another address, or null, the optional has a value that is not there *)
Theorem C99_refuted_elsewhere f x v m : member_new = Some (Some f) → f x ≠ Some x → m !! x = None →
  (∀ q, f x = Some q → m !! q = None) →
  ∃ o m', opt_construct x (Copy v) m = Done o m' ∧ o_initialized o = true ∧ opt_deref o m' = Undefined ∧
    (∀ q, f x = Some q → m' !! q = Some v) ∧
    ∃ m', vec_emplace x (Copy v) m = Done tt m' ∧ m' !! x = None.
Proof.
  intros E N F G. unfold opt_construct, vec_emplace, instantiate, new_compiles, bind, value_of, ret, new_at, opt_deref, rd.
  rewrite E. destruct (f x) as [q|].
  - rewrite put_free by auto. assert (x ≠ q) by congruence.
    do 2 eexists. split; [reflexivity|]. cbn [o_initialized o_val]. rewrite lookup_insert_ne, F by done.
    split_and!; [done..| |].
    + intros ? [= ->]. by rewrite lookup_insert.
    + eexists. split; [done|]. by rewrite lookup_insert_ne.
  - do 2 eexists. split; [reflexivity|]. cbn [o_initialized o_val]. rewrite F. split_and!; [done..|]. eauto.
Qed.
End props.

(** ** Examples *)
(** no operator new; a type kept off the heap by operator new(std::size_t) = delete; one that counts its
    allocations in void * operator new(std::size_t, void * p); a pool with a null pointer or a slot of its own *)
Definition plain : ElemType := {| V := nat; moved _ := 0; member_new := None |}.
Definition no_heap : ElemType := {| V := nat; moved _ := 0; member_new := Some None |}.
Definition counted : ElemType := {| V := nat; moved _ := 0; member_new := Some (Some Some) |}.
Definition pool : ElemType :=
  {| V := nat; moved _ := 0; member_new := Some (Some (λ p, if decide (p = 7) then None else Some (p + 100))) |}.
Example C99_own_case : own_storage plain ∧ own_storage counted ∧ ¬ own_storage no_heap ∧ ¬ own_storage pool.
Proof. split_and!; [done|done|cbn; tauto|]. intros H. by specialize (H 1). Qed.
Example C99_plain_case :
  @opt_construct plain 3 (@Copy plain 5) ∅ = @Done plain _ (Opt 3 true) {[3 := 5]} ∧
  @opt_move plain 3 (Opt 4 true) {[4 := 9]} = @Done plain _ (Opt 3 true) {[3 := 9; 4 := 0]} ∧
  @opt_swap plain (Opt 3 true) (Opt 4 false) {[3 := 9]} = @Done plain _ (Opt 3 false, Opt 4 true) {[4 := 9]}.
Proof.
  split_and!; [reflexivity|transitivity (@Done plain _ (Opt 3 true) (<[3:=9]> (<[4:=0]> {[4:=9]})))|
    transitivity (@Done plain _ (Opt 3 false, Opt 4 true) (delete 3 (<[4:=9]> (<[3:=0]> {[3:=9]}))))];
    [reflexivity|f_equal; by apply (bool_decide_unpack (_ =@{gmap nat nat} _))|reflexivity|f_equal; by apply (bool_decide_unpack (_ =@{gmap nat nat} _))].
Qed.
Example C99_empty_case : @opt_copy pool 3 (Opt 4 false) {[5 := 1]} = @Done pool _ (Opt 3 false) {[5 := 1]}.
Proof. by apply (@C99_empty_partial pool). Qed.
Example C99_no_heap_case :
  @opt_assign no_heap (Opt 3 true) (@Copy no_heap 5) {[3 := 1]} = @NoCompile no_heap _ ∧
  @vec_emplace no_heap 3 (@Copy no_heap 5) ∅ = @NoCompile no_heap _ ∧
  @vec_fill no_heap 3 [5; 6] ∅ = @Done no_heap _ tt (<[4 := 6]> {[3 := 5]}).
Proof. split_and!; reflexivity. Qed.
Example C99_pool_case :
  @opt_construct pool 3 (@Copy pool 5) ∅ = @Done pool _ (Opt 3 true) {[103 := 5]} ∧
  @opt_construct pool 7 (@Copy pool 5) ∅ = @Done pool _ (Opt 7 true) ∅ ∧
  @opt_assign pool (Opt 3 true) (@Copy pool 5) {[3 := 1]} = @Done pool _ (Opt 3 true) (<[3 := 5]> {[3 := 1]}) ∧
  @vec_fill pool 3 [5] ∅ = @Done pool _ tt {[3 := 5]}.
Proof. split_and!; reflexivity. Qed.

Print Assumptions C99_optional_partial.
Print Assumptions C99_assign_held_partial.
Print Assumptions C99_swap_partial.
Print Assumptions C99_elements_partial.
Print Assumptions C99_algorithms.
Print Assumptions C99_exact.
Print Assumptions C99_refuted_compile.
Print Assumptions C99_refuted_elsewhere.
Print Assumptions C99_empty_partial.
