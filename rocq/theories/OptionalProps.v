(** Properties C43-C47: optional. *)
From stdpp Require Import prelude gmap.
From Coq Require Import Lia.
From Verif Require Import Cpp OrderSpec OptionalModel OptionalSpec OptionalProofs.
Local Open Scope nat_scope.

Section props.
Context `{C : OptCfg}.
Notation state := (gmap nat (option V)).

(** ** C43 *)
(** every history inside the contract runs to its end with the results of the same history on
    plain option values, whichever copies fail *)
Theorem C43_optional_is_value_or_nothing os rs m k :
  srun os ∅ 0 = Some (rs, m, k) →
  ∃ w, orun os init_world = Finished rs w ∧ shows w m ∧ ncopy w = k.
Proof.
  intros H. apply orun_rep in H. rewrite rep_init in H. exists (rep m k). split; [done|]. split; [apply rep_shows|done].
Qed.
Lemma reachable_shows w m : reachable w m → shows w m.
Proof. intros H. destruct (reachable_rep _ _ H) as [k ->]. apply rep_shows. Qed.
(** one more call, with all its outcomes *)
Theorem C43_optional_call w m o :
  reachable w m →
  match sstep o m with
  | Bad => True
  | Throws e => oexec o w = Exn e w
  | Done r m' None => ∃ w', oexec o w = Ok r w' ∧ shows w' m' ∧ ncopy w' = ncopy w
  | Done r m' (Some mf) =>
      ∃ w', ncopy w' = S (ncopy w) ∧
        if copy_fails (ncopy w) then oexec o w = Exn ElementThrow w' ∧ shows w' mf
        else oexec o w = Ok r w' ∧ shows w' m'
  end.
Proof.
  intros H. destruct (reachable_rep _ _ H) as [k ->]. pose proof (oexec_rep o m k) as Ho.
  destruct (sstep o m) as [|r m' [mf|]|e]; [done| | |done].
  - cbn [ncopy rep]. rewrite Ho. destruct (copy_fails k).
    + exists (rep mf (S k)). split; [done|]. split; [done|apply rep_shows].
    + exists (rep m' (S k)). split; [done|]. split; [done|apply rep_shows].
  - exists (rep m' k). split; [done|]. split; [apply rep_shows|done].
Qed.

(** ** C44 *)
(** is there a live value in the storage of [x]? *)
Definition alive (w : world) (x : nat) : Prop := ∃ o v, objs w !! x = Some o ∧ o_val o = Some v.
(** reading or destroying a dead value, constructing over a live one and releasing the storage
    of a live one all fault *)
Theorem C44_optional_never_faults os rs m k :
  srun os ∅ 0 = Some (rs, m, k) → (∀ f, orun os init_world ≠ Faulted f) ∧ orun os init_world ≠ Aborted.
Proof. intros H. destruct (C43_optional_is_value_or_nothing _ _ _ _ H) as (w & -> & _). done. Qed.
(** a value is alive exactly in the optionals that have one, and they know *)
Theorem C44_optional_alive w m x :
  reachable w m →
  (alive w x ↔ ∃ v, m !! x = Some (Some v)) ∧
  (alive w x ↔ opt_has_value x w = Ok true w).
Proof.
  intros H. pose proof (reachable_shows _ _ H x) as Hs. destruct (reachable_rep _ _ H) as [k ->]. split; split.
  - intros (o & v & Ho & Hv). cbn [objs rep] in Ho. rewrite lookup_fmap in Ho. destruct (m !! x) as [o'|]; [|done].
    injection Ho as <-. cbn [cell o_val] in Hv. subst o'. by exists v.
  - intros (v & Hv). exists (cell (Some v)), v. cbn [objs rep]. by rewrite lookup_fmap, Hv.
  - intros (o & v & Ho & Hv). cbn [objs rep] in Ho. rewrite lookup_fmap in Ho. destruct (m !! x) as [o'|] eqn:E; [|done].
    injection Ho as <-. cbn [cell o_val] in Hv. subst o'. by apply (has_rep m k x (Some v)).
  - intros Hb. destruct (m !! x) as [[v|]|] eqn:E.
    + exists (cell (Some v)), v. cbn [objs rep]. by rewrite lookup_fmap, E.
    + by rewrite Hs in Hb.
    + unfold opt_has_value, noexcept, bind, get_opt in Hb. by rewrite Hs in Hb.
Qed.
(** every optional can be destroyed, which leaves nothing of it behind *)
Theorem C44_optional_destroy w m x :
  reachable w m → is_Some (m !! x) →
  ∃ w', opt_destroy x w = Ok tt w' ∧ objs w' = delete x (objs w) ∧ ¬ alive w' x ∧ ∀ y, y ≠ x → alive w' y ↔ alive w y.
Proof.
  intros H [o Hx]. destruct (reachable_rep _ _ H) as [k ->]. pose proof (oexec_rep (ODestroy x) m k) as Ho.
  cbn [sstep oexec] in Ho. rewrite Hx in Ho. unfold obs_unit, bind in Ho.
  destruct (opt_destroy x (rep m k)) as [[] w'| | |] eqn:E; try done. injection Ho as ->.
  exists (rep (delete x m) k). split; [done|]. cbn [objs rep]. rewrite fmap_delete. split; [done|]. unfold alive. cbn [objs rep].
  split; [|intros y Hy; by rewrite fmap_delete, lookup_delete_ne].
  intros (o' & v & Ho' & _). by rewrite fmap_delete, lookup_delete in Ho'.
Qed.
Theorem C44_optional_no_leak os rs k :
  srun os ∅ 0 = Some (rs, ∅, k) → ∃ w, orun os init_world = Finished rs w ∧ ∀ x, ¬ alive w x.
Proof.
  intros H. destruct (C43_optional_is_value_or_nothing _ _ _ _ H) as (w & Hw & Hs & _). exists w. split; [done|].
  intros x (o & v & Ho & _). specialize (Hs x). rewrite lookup_empty in Hs. by rewrite Ho in Hs.
Qed.

(** ** C45 *)
(** a failing call leaves every optional as it was, except that assigning to a value may leave
    that value in whatever state its own assignment leaves it in *)
Theorem C45_optional_exception_safety w m o e w' :
  reachable w m → sstep o m ≠ Bad → oexec o w = Exn e w' →
  ∃ m', shows w' m' ∧
    (∀ x, opt_has_value x w = Ok true w ↔ opt_has_value x w' = Ok true w') ∧
    (∀ x, objs w !! x = None ↔ objs w' !! x = None) ∧
    (m' = m ∨ ∃ x old, ((∃ y, o = OCopyAssign x y) ∨ ∃ r, o = OAssign x r) ∧ m !! x = Some (Some old) ∧
       ∃ v, m' = <[x:=Some (torn old v)]> m).
Proof.
  intros H Hb He. destruct (reachable_rep _ _ H) as [k ->].
  assert (Hk : ∀ m' k', (m' = m ∨ ∃ x old, ((∃ y, o = OCopyAssign x y) ∨ ∃ r, o = OAssign x r) ∧ m !! x = Some (Some old) ∧
       ∃ v, m' = <[x:=Some (torn old v)]> m) → w' = rep m' k' →
    ∃ m', shows w' m' ∧
    (∀ x, opt_has_value x (rep m k) = Ok true (rep m k) ↔ opt_has_value x w' = Ok true w') ∧
    (∀ x, objs (rep m k) !! x = None ↔ objs w' !! x = None) ∧
    (m' = m ∨ ∃ x old, ((∃ y, o = OCopyAssign x y) ∨ ∃ r, o = OAssign x r) ∧ m !! x = Some (Some old) ∧
       ∃ v, m' = <[x:=Some (torn old v)]> m)).
  { intros m' k' Hm ->. exists m'.
    assert (Hhas : ∀ (n : state) j x, opt_has_value x (rep n j) = Ok true (rep n j) ↔ ∃ v, n !! x = Some (Some v)).
    { intros n j x. destruct (n !! x) as [[v|]|] eqn:E.
      - rewrite (has_rep _ _ _ _ E). split; [by exists v|done].
      - rewrite (has_rep _ _ _ _ E). split; [done|]. by intros [].
      - unfold opt_has_value, noexcept, bind, get_opt. cbn [objs rep]. rewrite lookup_fmap, E. split; [done|]. by intros []. }
    split; [apply rep_shows|]. split; [|split; [|done]].
    - intros x. rewrite !Hhas. destruct Hm as [->|(y & old & _ & Hy & u & ->)]; [done|].
      destruct (decide (x = y)) as [->|Hne]; [|by rewrite lookup_insert_ne].
      rewrite lookup_insert. split; intros _; by eexists.
    - intros x. cbn [objs rep]. rewrite !lookup_fmap. destruct Hm as [->|(y & old & _ & Hy & u & ->)]; [done|].
      destruct (decide (x = y)) as [->|Hne]; [|by rewrite lookup_insert_ne]. rewrite lookup_insert, Hy. by split. }
  pose proof (oexec_rep o m k) as Ho. destruct (sstep o m) as [|r m' [mf|]|e'] eqn:E; [done| | |].
  - rewrite He in Ho. destruct (copy_fails k); [|done]. injection Ho as -> ->.
    apply (Hk mf (S k)); [|done]. clear -E. destruct o as [x|x y|x y|x a|x r0|x|x|x y|x y|x r0|x r0|x a|x|x y|x v|x|x|x|x|x d|x d]; cbn [sstep] in E; unfold snew, sassign in E;
    repeat match type of E with
           | Bad = _ => discriminate E
           | Done _ _ _ = Done _ _ _ => injection E as <- <- E
           | None = Some _ => discriminate E
           | Some _ = Some _ => injection E as <-
           | Throws _ = _ => discriminate E
           | context [match ?b with _ => _ end] => destruct b eqn:?
           end; try (by left).
    + right. eexists _, _. split; [left; by eexists|]. split; [done|]. by eexists.
    + right. eexists x, _. split; [right; by eexists|]. split; [done|]. by eexists.
  - by rewrite Ho in He.
  - rewrite Ho in He. injection He as <- <-. apply (Hk m k); [by left|done].
Qed.
(** copying into an empty optional: if that fails the optional stays empty *)
Theorem C45_assign_to_empty w m x r v :
  reachable w m → m !! x = Some None → sref m r = Some v →
  ∃ w', if copy_fails (ncopy w) then opt_assign x r w = Exn ElementThrow w' ∧ shows w' m
        else opt_assign x r w = Ok tt w' ∧ shows w' (<[x:=Some v]> m).
Proof.
  intros H Hx Hr. destruct (reachable_rep _ _ H) as [k ->]. cbn [ncopy rep].
  rewrite (assign_rep m k x r v ltac:(by eexists) Hr), Hx. destruct (copy_fails k).
  - exists (rep m (S k)). split; [done|apply rep_shows].
  - exists (rep (<[x:=Some v]> m) (S k)). split; [done|apply rep_shows].
Qed.
(** emplace: all or nothing, also when the arguments refer to the optional's own value *)
Theorem C45_emplace w m x a v m1 :
  reachable w m → is_Some (m !! x) → sarg m a = Some (v, m1) →
  ∃ w', if throwing a && copy_fails (ncopy w) then opt_emplace x a w = Exn ElementThrow w' ∧ shows w' m
        else opt_emplace x a w = Ok v w' ∧ shows w' (<[x:=Some v]> m1).
Proof.
  intros H Hx Ha. destruct (reachable_rep _ _ H) as [k ->]. cbn [ncopy rep].
  rewrite (emplace_rep m k x a v m1 Hx Ha). destruct (throwing a); [destruct (copy_fails k)|]; cbn [andb].
  - exists (rep m (S k)). split; [done|apply rep_shows].
  - exists (rep (<[x:=Some v]> m1) (S k)). split; [done|apply rep_shows].
  - exists (rep (<[x:=Some v]> m1) k). split; [done|apply rep_shows].
Qed.

(** ** C46 *)
Theorem C46_value w m x o :
  reachable w m → m !! x = Some o →
  match o with
  | Some v => opt_has_value x w = Ok true w ∧ opt_value x w = Ok v w
  | None => opt_has_value x w = Ok false w ∧ opt_value x w = Exn BadOptionalAccess w
  end.
Proof.
  intros H Hx. destruct (reachable_rep _ _ H) as [k ->]. pose proof (has_rep _ k _ _ Hx) as Hh.
  destruct o as [v|]; (split; [done|]); unfold opt_value, bind; rewrite Hh; [|done].
  unfold opt_deref. by rewrite (rd_rep _ _ _ _ Hx).
Qed.
(** value() && gives the value away, but the optional keeps having one *)
Theorem C46_value_rvalue w m x o :
  reachable w m → m !! x = Some o →
  match o with
  | Some v => ∃ w', opt_take x w = Ok v w' ∧ shows w' (<[x:=Some (moved v)]> m)
  | None => opt_take x w = Exn BadOptionalAccess w
  end.
Proof.
  intros H Hx. destruct (reachable_rep _ _ H) as [k ->]. pose proof (oexec_rep (OTake x) m k) as Ho.
  cbn [sstep oexec] in Ho. rewrite Hx in Ho. unfold obs_val, bind in Ho.
  destruct o as [v|]; destruct (opt_take x (rep m k)) as [v' w'| | |]; try done.
  - injection Ho as -> ->. exists (rep (<[x:=Some (moved v)]> m) k). split; [done|apply rep_shows].
  - by injection Ho as -> ->.
Qed.
(** value_or: a copy of the value, or of the default *)
Theorem C46_value_or w m x o d :
  reachable w m → m !! x = Some o →
  ∃ w', shows w' m ∧
    opt_value_or x (ACopy (RVal d)) w =
      if copy_fails (ncopy w) then Exn ElementThrow w' else Ok (match o with Some v => v | None => d end) w'.
Proof.
  intros H Hx. destruct (reachable_rep _ _ H) as [k ->]. cbn [ncopy rep]. exists (rep m (S k)). split; [apply rep_shows|].
  unfold opt_value_or, bind. rewrite (has_rep _ _ _ _ Hx). destruct o as [v|].
  - assert (Ha : sarg m (ACopy (ROpt x)) = Some (v, m)) by (cbn [sarg sref]; by rewrite Hx).
    by rewrite (new_value_rep _ _ _ _ _ Ha).
  - by rewrite (new_value_rep _ _ (ACopy (RVal d)) d m).
Qed.
Theorem C46_value_or_rvalue w m x o d :
  reachable w m → m !! x = Some o →
  ∃ w', shows w' (<[x:=moved <$> o]> m) ∧
    opt_take_or x (AMove (RVal d)) w = Ok (match o with Some v => v | None => d end) w'.
Proof.
  intros H Hx. destruct (reachable_rep _ _ H) as [k ->]. exists (rep (<[x:=moved <$> o]> m) k). split; [apply rep_shows|].
  unfold opt_take_or, bind. rewrite (has_rep _ _ _ _ Hx). destruct o as [v|].
  - assert (Ha : sarg m (AMove (ROpt x)) = Some (v, <[x:=Some (moved v)]> m)) by (cbn [sarg sref]; by rewrite Hx).
    by rewrite (new_value_rep _ _ _ _ _ Ha).
  - rewrite (new_value_rep _ _ (AMove (RVal d)) d m) by done. cbn. by rewrite insert_id.
Qed.

(** ** C47 *)
Context `{Ops : !SixOps V}.
(** whatever the operators of the value type are: nullopt is below every value and values
    compare as themselves; nothing changes *)
Theorem C47_optional_comparisons w m a b u v fs :
  reachable w m → six_of a b = Some fs → soperand m a = Some u → soperand m b = Some v →
  (λ f : M world bool, f w) <$> fs = (λ r, Ok r w) <$> answer_list (opt_six u v).
Proof. intros H. destruct (reachable_rep _ _ H) as [k ->]. apply six_of_rep. Qed.
(** the order with nullopt below everything is an order *)
Theorem C47_nullopt_lowest_total (lt eq : V → V → Prop) :
  total_order lt eq → total_order (opt_order lt) (opt_equal eq).
Proof.
  intros T. split.
  - intros [x|]; cbn [opt_order]; [apply (to_irrefl _ _ T)|auto].
  - intros [x|] [y|] [z|]; cbn [opt_order]; try done. apply (to_trans _ _ T).
  - intros [x|] [y|]; cbn [opt_order opt_equal]; [apply (to_equal _ _ T)|tauto..].
  - intros [x|] [y|] [z|]; cbn [opt_equal]; try done. apply (to_equal_trans _ _ T).
Qed.
(** and all twenty-four operators answer according to it, if the value type is totally ordered *)
Theorem C47_optional_one_order :
  ops_total (A:=V) →
  ∃ lt eq : option V → option V → Prop, total_order lt eq ∧ (∀ v, lt None (Some v)) ∧
    ∀ w m a b u v fs,
      reachable w m → six_of a b = Some fs → soperand m a = Some u → soperand m b = Some v →
      ∃ c, (λ f : M world bool, f w) <$> fs = (λ r, Ok r w) <$> answer_list (answers_for c) ∧
        match c with Lt => lt u v | Eq => eq u v | Gt => lt v u end.
Proof.
  intros (lt & eq & T & Hops). exists (opt_order lt), (opt_equal eq).
  split; [by apply C47_nullopt_lowest_total|]. split; [done|].
  intros w m a b u v fs Hre Hf Ha Hb. rewrite (C47_optional_comparisons _ _ _ _ _ _ _ Hre Hf Ha Hb).
  destruct u as [u|], v as [v|]; cbn [opt_six].
  - destruct (Hops u v) as (c & -> & Hc). exists c. split; [done|]. by destruct c.
  - by exists Gt.
  - by exists Lt.
  - by exists Eq.
Qed.
End props.

(** ** Examples: values are natural numbers, a moved-from value is 90 *)
Definition ocfg (cf : nat → bool) : OptCfg :=
  {| V := nat; moved := λ _, 90; selfmove := λ _, 91; torn := λ o n, 200 + o;
     make := λ l, fold_right Nat.add 0 l; copy_fails := cf |}.
Definition ogood : OptCfg := ocfg (λ _, false).
Definition fails (l : list nat) : OptCfg := ocfg (λ k, existsb (Nat.eqb k) l).
Definition ocheck (C : OptCfg) {A} (f : @world C → gmap nat (option (@V C)) → A) (os : list (@oop C)) : option A :=
  match @srun C os ∅ 0, @orun C os init_world with
  | Some (_, m, _), Finished _ w => Some (f w m)
  | _, _ => None
  end.
Lemma ocheck_reachable C (f : @world C → gmap nat (option (@V C)) → bool) os :
  @ocheck C _ f os = Some true → ∃ w m, @reachable C w m ∧ f w m = true.
Proof.
  unfold ocheck. destruct (srun os ∅ 0) as [[[rs m] k]|] eqn:E; [|done]. intros H.
  destruct (C43_optional_is_value_or_nothing _ _ _ _ E) as (w & Hw & _). rewrite Hw in H. injection H as H.
  exists w, m. split; [|done]. by exists os, rs, k.
Qed.
Definition rv {cf} (n : nat) : @ref (ocfg cf) := @RVal (ocfg cf) n.
Definition ov {cf} (n : nat) : @oobs (ocfg cf) := @OVal (ocfg cf) n.
Definition slot {cf} (w : @world (ocfg cf)) (x : nat) : option (option nat) :=
  match objs w !! x with Some o => Some (o_val o) | None => None end.
Definition some_moves : list (@oop ogood) :=
  [ONew 0; ONewValue 1 (ACopy (rv 5)); ONewMove 2 1; OCopyAssign 0 2; OEmplace 0 (AMake [ROpt 0; ROpt 0]); OSwap 0 1;
   OTake 0; OValueOr 0 (ACopy (rv 7)); OReset 0; OValueOr 0 (ACopy (rv 7)); OValue 0; OSwap 0 2; OAssignRvalue 1 (ROpt 1);
   OHasValue 2; ODeref 0; OAssignNull 0].
Example C43_case :
  (λ p : list (@oobs ogood) * gmap nat (option nat) * nat, (p.1.1, p.1.2 !! 0, p.1.2 !! 1, p.1.2 !! 2)) <$> @srun ogood some_moves ∅ 0 =
  Some ([OUnit; OUnit; OUnit; OUnit; ov 10; OUnit; ov 90; ov 90; OUnit; ov 7; OThrew BadOptionalAccess; OUnit; OUnit; OBool false; ov 5; OUnit],
    Some None, Some (Some 91), Some None).
Proof. by vm_compute. Qed.
Example C43_call_case : ∃ w m, @reachable (fails [1]) w m ∧
  match @sstep (fails [1]) (OCopyAssign 1 0) m, @oexec (fails [1]) (OCopyAssign 1 0) w with
  | Done _ _ (Some mf), Exn ElementThrow w' => bool_decide (mf !! 1 = Some (Some 206)) && bool_decide (ncopy w' = 2)
  | _, _ => false
  end = true.
Proof. apply (ocheck_reachable (fails [1]) _ [ONewValue 0 (ACopy (rv 5)); ONewRvalue 1 (rv 6)]). by vm_compute. Qed.
(** destroying everything, with failures on the way *)
Example C44_case :
  let C := fails [2; 3] in
  let os : list (@oop C) := [ONewValue 0 (ACopy (rv 5)); ONewCopy 1 0; ONewCopy 2 0; ONew 3; OCopyAssign 3 0; OSwap 3 1;
    OMoveAssign 0 1; ODestroy 0; ODestroy 3; ODestroy 1] in
  match @srun C os ∅ 0 with
  | Some (rs, m, k) => bool_decide (map_to_list m = []) && (k =? 4) &&
      bool_decide ((λ r, match r with OThrew _ => true | _ => false end) <$> rs = [false; false; true; false; true; false; false; false; false; false])
  | None => false
  end = true.
Proof. by vm_compute. Qed.
Example C45_case :
  let C := fails [1; 2; 3] in ∃ w m, @reachable C w m ∧
  match @oexec C (OAssign 1 (ROpt 0)) w, @oexec C (OEmplace 0 (AMake [ROpt 0])) w, @oexec C (OAssign 0 (ROpt 0)) w with
  | Exn ElementThrow w1, Exn ElementThrow w2, Exn ElementThrow w3 =>
      bool_decide (slot w1 1 = Some None) && bool_decide (slot w2 0 = Some (Some 5)) &&
      bool_decide (slot w3 0 = Some (Some 205))
  | _, _, _ => false
  end = true.
Proof.
  intros C. apply (ocheck_reachable C _ [ONewValue 0 (ACopy (rv 5)); ONew 1]). by vm_compute.
Qed.
(** emplacing from the optional's own value *)
Example C45_emplace_case :
  @ocheck ogood bool (λ w m, match @oexec ogood (OEmplace 0 (AMove (ROpt 0))) w with
     | Ok (OVal v) w' => bool_decide (v = 5) && bool_decide (slot w' 0 = Some (Some 5)) | _ => false end)
    [ONewRvalue 0 (rv 5)] = Some true.
Proof. by vm_compute. Qed.
Example C46_case : ∃ w m, @reachable ogood w m ∧
  bool_decide (m !! 0 = Some (Some 5)) && bool_decide (m !! 1 = Some None) &&
  match opt_value 0 w, opt_value 1 w, opt_value_or 0 (ACopy (rv 8)) w, opt_value_or 1 (ACopy (rv 8)) w,
        opt_take_or 0 (AMove (rv 8)) w, opt_take 1 w with
  | Ok 5 _, Exn BadOptionalAccess _, Ok 5 _, Ok 8 _, Ok 5 w', Exn BadOptionalAccess _ => bool_decide (slot w' 0 = Some (Some 90))
  | _, _, _, _, _, _ => false
  end = true.
Proof. apply (ocheck_reachable ogood _ [ONewRvalue 0 (rv 5); ONew 1]). by vm_compute. Qed.
Global Instance nat_six : SixOps nat := λ x y, answers_for (Nat.compare x y).
Lemma nat_ops_total : ops_total (A:=nat).
Proof.
  exists Nat.lt, Nat.eq. split.
  - split; unfold Nat.lt, Nat.eq; lia.
  - intros x y. exists (Nat.compare x y). split; [done|]. destruct (Nat.compare_spec x y); done.
Qed.
Example C47_case : ∃ w m, @reachable ogood w m ∧
  let ask a b := match @six_of ogood nat_six a b with
    | Some fs => (λ f : M (@world ogood) bool, match f w with Ok r _ => r | _ => false end) <$> fs | None => [] end in
  bool_decide (ask (POpt 0) (POpt 1) = [true; true; false; false; false; true]) &&
  bool_decide (ask (POpt 0) PNull = [false; false; true; true; false; true]) &&
  bool_decide (ask (POpt 2) PNull = [false; true; false; true; true; false]) &&
  bool_decide (ask PNull (POpt 1) = [true; true; false; false; false; true]) &&
  bool_decide (ask (PVal (rv 9)) (POpt 1) = [false; true; false; true; true; false]) &&
  bool_decide (ask (POpt 2) (PVal (rv 0)) = [true; true; false; false; false; true]) = true.
Proof.
  apply (ocheck_reachable ogood _ [ONewRvalue 0 (rv 5); ONewRvalue 1 (rv 9); ONew 2]).
  by vm_compute.
Qed.

Print Assumptions C43_optional_is_value_or_nothing.
Print Assumptions C43_optional_call.
Print Assumptions C44_optional_never_faults.
Print Assumptions C44_optional_alive.
Print Assumptions C44_optional_destroy.
Print Assumptions C44_optional_no_leak.
Print Assumptions C45_optional_exception_safety.
Print Assumptions C45_assign_to_empty.
Print Assumptions C45_emplace.
Print Assumptions C46_value.
Print Assumptions C46_value_rvalue.
Print Assumptions C46_value_or.
Print Assumptions C46_value_or_rvalue.
Print Assumptions C47_optional_comparisons.
Print Assumptions C47_nullopt_lowest_total.
Print Assumptions C47_optional_one_order.
