(** C77: a container stores the value it is given. C78: what emplace constructs. *)
From stdpp Require Import prelude.
From Verif Require Import InitModel.
Local Open Scope nat_scope.

Section props.
Context `{L : InitLang}.
(** what makes the type copyable: a copy has the value of the original *)
Definition copyable (T : ty) : Prop := ∀ v, type_of v = T → parens T [v] = Some v ∧ narrows T [v] = false.

(** ** C77 *)
Lemma braces_one T v : copyable T → type_of v = T →
  braces T [v] = if is_aggregate T then Some v else match init_list T [v] with Selected u => Some u | Narrowing => None | NotViable => Some v end.
Proof.
  intros Hc Hv. destruct (Hc v Hv) as [Hp Hn]. unfold braces. rewrite Hp, Hn. destruct (is_aggregate T).
  - by rewrite decide_True.
  - done.
Qed.
(** the stored value, at every place *)
Theorem C77_stored_behaviour p T v : copyable T → type_of v = T →
  stored p T v =
    if with_braces p && negb (is_aggregate T) then
      match init_list T [v] with Selected u => Some u | Narrowing => None | NotViable => Some v end
    else Some v.
Proof.
  intros Hc Hv. unfold stored. destruct (with_braces p); cbn [andb]; [|by apply Hc].
  rewrite braces_one by done. by destruct (is_aggregate T).
Qed.
(** it is the given one unless the type has a constructor for an initializer_list whose elements
    can be made from values of the type itself; then copies of copies are, too *)
Theorem C77_stored_partial p T v : copyable T → type_of v = T →
  (is_aggregate T = true ∨ init_list T [v] = NotViable) →
  stored p T v = Some v ∧ ∀ n, copies n p T v = Some v.
Proof.
  intros Hc Hv Ha. assert (Hs : stored p T v = Some v).
  { rewrite C77_stored_behaviour by done. destruct Ha as [->| ->].
    - cbn [negb]. by rewrite andb_false_r.
    - by destruct (with_braces p && negb (is_aggregate T)). }
  split; [done|]. intros n. induction n as [|n IH]; [done|]. cbn [copies]. by rewrite Hs.
Qed.
(** otherwise, exactly the places with parentheses are right: push_back(v) and insert(end(), v)
    store different values *)
Theorem C77_stored_refuted T v u : copyable T → type_of v = T → is_aggregate T = false →
  init_list T [v] = Selected u → u ≠ v →
  (∀ p, stored p T v = Some v ↔ p ∈ [VectorInsertCopy; VectorFill; VectorCopy; VectorGrow]) ∧
  stored VectorPushBack T v ≠ stored VectorInsertCopy T v.
Proof.
  intros Hc Hv Ha Hi Hu.
  assert (H : ∀ p, stored p T v = if with_braces p then Some u else Some v).
  { intros p. rewrite C77_stored_behaviour, Ha, Hi by done. cbn [negb]. by destruct (with_braces p). }
  split.
  - intros p. rewrite H. rewrite !elem_of_cons, elem_of_nil. destruct p; cbn [with_braces]; naive_solver.
  - rewrite !H. cbn [with_braces]. congruence.
Qed.

(** and copies of copies can get larger and larger *)
Theorem C77_copies_refuted (size : V → nat) p T v n : copyable T → is_aggregate T = false → with_braces p = true →
  (∀ u, type_of u = T → ∃ u', init_list T [u] = Selected u' ∧ type_of u' = T ∧ size u < size u') →
  type_of v = T → ∃ u, copies n p T v = Some u ∧ size v + n ≤ size u.
Proof.
  intros Hc Ha Hp Hi. revert v. induction n as [|n IH]; intros v Hv; [exists v; split; [done|lia]|].
  destruct (Hi v Hv) as (u' & Hs & Hu & Hl). cbn [copies]. rewrite C77_stored_behaviour, Hp, Ha, Hs by done. cbn [andb negb].
  destruct (IH u' Hu) as (u & Hcu & Hle). exists u. split; [done|lia].
Qed.

(** ** C78 *)
(** emplace constructs T(args...) if T is no aggregate, no constructor for an initializer_list is
    viable and no conversion is narrowing *)
Theorem C78_emplaced_partial T args :
  is_aggregate T = false → init_list T args = NotViable → narrows T args = false →
  (∀ v, args = [] → value_init T = Some v → parens T args = Some v) →
  emplaced T args = parens T args.
Proof.
  intros Ha Hi Hn Hz. unfold emplaced, braces. rewrite Ha, Hi, Hn. destruct args as [|a l]; [|done].
  destruct (value_init T) as [v|] eqn:E; [|done]. symmetry. by apply Hz.
Qed.
(** a viable constructor for an initializer_list is always preferred *)
Theorem C78_emplaced_refuted T args u v :
  is_aggregate T = false → args ≠ [] → init_list T args = Selected u → parens T args = Some v → u ≠ v →
  emplaced T args = Some u ∧ emplaced T args ≠ parens T args.
Proof.
  intros Ha Hn Hi Hp Hu. unfold emplaced, braces. rewrite Ha, Hi, Hp. destruct args as [|a l]; [done|]. split; [done|congruence].
Qed.
(** even if it needs a narrowing conversion and the call therefore does not compile; other
    constructors are rejected if they need one *)
Theorem C78_narrowing_refuted T args v :
  is_aggregate T = false → args ≠ [] → parens T args = Some v →
  init_list T args = Narrowing ∨ (init_list T args = NotViable ∧ narrows T args = true) →
  emplaced T args = None.
Proof.
  intros Ha Hn Hp Hi. unfold emplaced, braces. rewrite Ha. destruct args as [|a l]; [done|]. destruct Hi as [->|[-> ->]]; done.
Qed.
End props.

(** ** Examples. The types: int, unsigned, std::vector<int>, std::vector<std::any> and an
    aggregate of two ints; every value can be made a std::any *)
Inductive ety := EInt | EUns | EInts | EAnys | EPair.
Global Instance ety_eq : EqDecision ety.
Proof. solve_decision. Defined.
Inductive ev := I (n : nat) | U (n : nat) | Ints (l : list nat) | Anys (l : list ev) | Pair (a b : nat).
Definition etype (v : ev) : ety := match v with I _ => EInt | U _ => EUns | Ints _ => EInts | Anys _ => EAnys | Pair _ _ => EPair end.
Definition all_ints (l : list ev) : option (list nat) := mapM (λ v, match v with I n | U n => Some n | _ => None end) l.
Definition is_uns (v : ev) : bool := match v with U _ => true | _ => false end.
Global Instance elang : InitLang := {|
  ty := ety; V := ev; type_of := etype;
  is_aggregate := λ T, bool_decide (T = EPair);
  from_members := λ T l, match l with [I a; I b] => Some (Pair a b) | _ => None end;
  value_init := λ T, match T with EInt => Some (I 0) | EUns => Some (U 0) | EInts => Some (Ints []) | EAnys => Some (Anys []) | EPair => Some (Pair 0 0) end;
  init_list := λ T l, match T with
    | EInts => match all_ints l with Some ns => if existsb is_uns l then Narrowing else Selected (Ints ns) | None => NotViable end
    | EAnys => Selected (Anys l)
    | _ => NotViable
    end;
  parens := λ T l, match T, l with
    | EInt, [I n] | EInt, [U n] => Some (I n)
    | EUns, [I n] | EUns, [U n] => Some (U n)
    | EInts, [Ints l] => Some (Ints l)
    | EInts, [I n] | EInts, [U n] => Some (Ints (replicate n 0))
    | EInts, [I n; I x] | EInts, [U n; I x] => Some (Ints (replicate n x))
    | EAnys, [Anys l] => Some (Anys l)
    | EPair, [Pair a b] => Some (Pair a b)
    | _, _ => None
    end;
  narrows := λ T l, match T, l with EInt, [U _] | EUns, [I _] => true | _, _ => false end;
|}.
Lemma elang_copyable T : copyable T.
Proof. intros v <-. by destruct v. Qed.
Fixpoint depth (v : ev) : nat := match v with Anys l => S (list_max (depth <$> l)) | _ => 0 end.
Lemma wrapped v : Anys [v] ≠ v.
Proof. intros H. apply (f_equal depth) in H. cbn in H. lia. Qed.
(** every std::vector<std::any> is stored as a vector of itself, deeper with every copy *)
Example C77_anys l : stored OptionalCopy EAnys (Anys l) = Some (Anys [Anys l]) ∧ stored VectorInsertCopy EAnys (Anys l) = Some (Anys l) ∧
  ∀ p, stored p EAnys (Anys l) = Some (Anys l) ↔ p ∈ [VectorInsertCopy; VectorFill; VectorCopy; VectorGrow].
Proof.
  split; [done|]. split; [done|].
  apply (C77_stored_refuted (L:=elang) EAnys (Anys l) (Anys [Anys l]) (elang_copyable EAnys)); try done. apply wrapped.
Qed.
Example C77_anys_grow n l : ∃ u, copies n OptionalCopy EAnys (Anys l) = Some u ∧ depth (Anys l) + n ≤ depth u.
Proof.
  apply (C77_copies_refuted (L:=elang)); try done; [apply elang_copyable|].
  intros [] [=]. eexists. split; [done|]. split; [done|]. cbn. lia.
Qed.
Example C77_case :
  copies 3 OptionalCopy EAnys (Anys [I 1]) = Some (Anys [Anys [Anys [Anys [I 1]]]]) ∧
  copies 3 OptionalCopy EInts (Ints [1; 2]) = Some (Ints [1; 2]) ∧ init_list EInts [Ints [1; 2]] = NotViable ∧
  copies 3 VariantMove EPair (Pair 1 2) = Some (Pair 1 2).
Proof. by vm_compute. Qed.
(** emplace_back(3, 7) of a vector of std::vector<int> adds {3, 7} instead of {7, 7, 7} *)
Example C78_case :
  emplaced EInts [I 3; I 7] = Some (Ints [3; 7]) ∧ parens EInts [I 3; I 7] = Some (Ints [7; 7; 7]) ∧
  emplaced EInts [U 3; I 7] = None ∧ parens EInts [U 3; I 7] = Some (Ints [7; 7; 7]) ∧
  emplaced EInt [U 3] = None ∧ parens EInt [U 3] = Some (I 3) ∧
  emplaced EInt [I 3] = Some (I 3) ∧ init_list EInt [I 3] = NotViable ∧ emplaced EPair [I 1; I 2] = Some (Pair 1 2).
Proof. by vm_compute. Qed.

Print Assumptions C77_stored_behaviour.
Print Assumptions C77_stored_partial.
Print Assumptions C77_stored_refuted.
Print Assumptions C77_copies_refuted.
Print Assumptions C78_emplaced_partial.
Print Assumptions C78_emplaced_refuted.
Print Assumptions C78_narrowing_refuted.
