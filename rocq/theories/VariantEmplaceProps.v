(** C74: which values can be constructed in a variant. *)
From stdpp Require Import prelude.
From Verif Require Import VariantModel VariantProofs VariantEmplace.
Local Open Scope nat_scope.

Section props.
Context `{L : EmplaceLang}.
(** the static_asserts of variant.hpp:178, 186 *)
Definition alts_ok (alts : list nat) : Prop := NoDup alts ∧ 0 < length alts < 255.

Lemma types_lookup alts i : types alts !! i = Ty false <$> alts !! i.
Proof. apply list_lookup_fmap. Qed.
Lemma index_of_spec alts t : length alts < 255 →
  (t ∈ alts → alts !! index_of (Ty false t) alts = Some t) ∧
  (∀ T, T ∉ types alts → index_of T alts = not_found).
Proof.
  intros Hl. assert (Hl' : 0 + length (types alts) ≤ 255) by (unfold types; rewrite fmap_length; lia).
  split.
  - intros Ht. pose proof (determine_index_from (Ty false t) _ 0 Hl') as H.
    destruct (list_find _ (types alts)) as [[j U]|] eqn:E; cbn [fmap option_fmap option_map fst] in H.
    + apply list_find_Some in E as (Hj & <- & _). rewrite types_lookup in Hj. unfold index_of. rewrite (proj1 H). cbn [Nat.add].
      destruct (alts !! j); [|done]. cbn [fmap option_fmap option_map] in Hj. by injection Hj as ->.
    + exfalso. apply list_find_None in E. rewrite Forall_forall in E. eapply (E (Ty false t)); [|done].
      apply elem_of_list_fmap. by exists t.
  - intros T HT. pose proof (determine_index_from T _ 0 Hl') as H.
    destruct (list_find _ (types alts)) as [[j U]|] eqn:E; cbn [fmap option_fmap option_map fst] in H; [|exact H].
    exfalso. apply HT. apply list_find_Some in E as (Hj & -> & _). by eapply elem_of_list_lookup_2.
Qed.
Lemma can_store_iff alts T : length alts < 255 → can_store T alts = true ↔ t_id T ∈ alts.
Proof.
  intros Hl. destruct (index_of_spec alts (t_id T) Hl) as [H1 H2]. unfold can_store, remove_const.
  rewrite negb_true_iff, Nat.eqb_neq. split.
  - intros Hn. destruct (decide (t_id T ∈ alts)) as [|Hd]; [done|]. exfalso. apply Hn, H2. intros Hi. apply Hd.
    apply elem_of_list_fmap in Hi as (u & E & ?). by injection E as ->.
  - intros Hi E. apply H1 in Hi. rewrite E in Hi. apply lookup_lt_Some in Hi. unfold not_found in Hi. lia.
Qed.
Lemma set_compiles_iff alts i a : set_compiles alts i a = true ↔ ∃ t, alts !! i = Some t ∧ braces t a = true.
Proof.
  revert i. induction alts as [|h t IH]; intros i; cbn [set_compiles]; [split; [done|]; by intros (? & ? & _)|].
  destruct i as [|i]; [|apply IH]. cbn [lookup list_lookup]. split; [intros; by exists h|]. by intros (? & [= ->] & ?).
Qed.
Lemma get_compiles_iff alts i : get_compiles alts i = true ↔ i < length alts.
Proof.
  revert i. induction alts as [|h t IH]; intros i; cbn [get_compiles length]; [split; [done|lia]|].
  destruct i; [split; [lia|done]|]. rewrite IH. lia.
Qed.
Lemma emplace_compiles_iff alts a : emplace_compiles alts a = true ↔ ∀ t, t ∈ alts → braces t a = true.
Proof.
  unfold emplace_compiles. rewrite forallb_forall. split.
  - intros H t Ht. apply elem_of_list_lookup in Ht as [i Hi]. pose proof (lookup_lt_Some _ _ _ Hi) as Hlt.
    specialize (H i ltac:(apply in_seq; lia)). apply set_compiles_iff in H as (u & Hu & ?). congruence.
  - intros H i Hi. apply in_seq in Hi. destruct (lookup_lt_is_Some_2 alts i ltac:(lia)) as [t Ht].
    apply set_compiles_iff. exists t. split; [done|]. apply H. by eapply elem_of_list_lookup_2.
Qed.

(** ** C74 *)
(** the constructors are available exactly for the values that braces accept *)
Theorem C74_constructors alts t i a :
  alts_ok alts → alts !! i = Some t →
  in_place_index_compiles alts i a = braces t a ∧
  in_place_type_compiles alts (Ty false t) a = braces t a ∧
  ∀ c, value_compiles alts (Ty c t) a = braces t a.
Proof.
  intros [Hnd [_ Hl]] Hi. pose proof (elem_of_list_lookup_2 _ _ _ Hi) as Ht.
  assert (Hx : index_of (Ty false t) alts = i).
  { eapply NoDup_lookup; [exact Hnd| |exact Hi]. by apply index_of_spec. }
  assert (Hs : set_compiles alts i a = braces t a).
  { apply eq_bool_prop_intro. split.
    - intros H%Is_true_eq_true%set_compiles_iff. destruct H as (u & Hu & ?). rewrite Hi in Hu. injection Hu as <-.
      by apply Is_true_true.
    - intros H%Is_true_eq_true. apply Is_true_true, set_compiles_iff. by exists t. }
  assert (Hc : ∀ c, can_store (Ty c t) alts = true) by (intros c; by apply can_store_iff).
  assert (Hp : in_place_index_compiles alts i a = braces t a).
  { unfold in_place_index_compiles. apply lookup_lt_Some in Hi. by rewrite (proj2 (Nat.ltb_lt _ _) Hi), Hs. }
  split; [done|]. split.
  - unfold in_place_type_compiles. by rewrite Hc, Hx.
  - intros c. unfold value_compiles, remove_const. cbn [t_id]. by rewrite Hc, Hx.
Qed.
Theorem C74_constructors_others alts T i a :
  alts_ok alts → (t_id T ∉ alts → in_place_type_compiles alts T a = false ∧ value_compiles alts T a = false) ∧
  (alts !! i = None → in_place_index_compiles alts i a = false).
Proof.
  intros [_ [_ Hl]]. split.
  - intros Hn. unfold in_place_type_compiles, value_compiles.
    destruct (can_store T alts) eqn:E; [|done]. exfalso. apply Hn. by apply can_store_iff in E.
  - intros Hi. unfold in_place_index_compiles. apply lookup_ge_None in Hi. by rewrite (proj2 (Nat.ltb_ge _ _) Hi).
Qed.
(** emplace<T> is available for: the values that braces accept, if their construction may throw;
    else only if all alternatives could be constructed from the same arguments *)
Theorem C74_emplace_behaviour alts T a :
  alts_ok alts →
  emplace_type_compiles alts T a = true ↔
  t_const T = false ∧ t_id T ∈ alts ∧
  (if nothrow (t_id T) a then ∀ u, u ∈ alts → braces u a = true else braces (t_id T) a = true).
Proof.
  intros Hok. pose proof Hok as [Hnd [_ Hl]]. unfold emplace_type_compiles. rewrite !andb_true_iff, can_store_iff by done.
  destruct T as [c t]. cbn [t_id t_const].
  assert (Hg : get_compiles alts (index_of (Ty c t) alts) = true ↔ c = false ∧ t ∈ alts).
  { rewrite get_compiles_iff. split.
    - intros H. destruct (decide (Ty c t ∈ types alts)) as [Hd|Hd].
      + apply elem_of_list_fmap in Hd as (u & E & ?). by injection E as -> ->.
      + apply (proj2 (index_of_spec alts t Hl)) in Hd. rewrite Hd in H. unfold not_found in H. lia.
    - intros [-> Ht]. eapply lookup_lt_Some, (proj1 (index_of_spec alts t Hl)), Ht. }
  rewrite Hg. split.
  - intros [[Ht Hb] [-> _]]. split; [done|]. split; [done|]. destruct (nothrow t a); [by apply emplace_compiles_iff|].
    apply elem_of_list_lookup in Ht as [i Hi]. destruct (C74_constructors alts t i a Hok Hi) as (_ & E & _). by rewrite E in Hb.
  - intros (-> & Ht & Hb). split; [split; [done|]|done]. destruct (nothrow t a); [by apply emplace_compiles_iff|].
    apply elem_of_list_lookup in Ht as [i Hi]. destruct (C74_constructors alts t i a Hok Hi) as (_ & E & _). by rewrite E.
Qed.
(** the full claim: emplace<T>(args...) compiles exactly if T is constructible from args. It
    holds for constructions that may throw and do not depend on the kind of brackets *)
Theorem C74_emplace_partial alts t a :
  alts_ok alts → t ∈ alts → nothrow t a = false → parens t a = braces t a →
  emplace_type_compiles alts (Ty false t) a = parens t a.
Proof.
  intros Hok Ht Hn ->. apply eq_bool_prop_intro. split; intros H%Is_true_eq_true; apply Is_true_true.
  - apply (C74_emplace_behaviour _ _ _ Hok) in H as (_ & _ & H). cbn [t_id] in H. by rewrite Hn in H.
  - apply (C74_emplace_behaviour _ _ _ Hok). cbn [t_id t_const]. by rewrite Hn.
Qed.
(** a construction that cannot throw is unavailable as soon as another alternative does not
    accept the arguments *)
Theorem C74_emplace_refuted alts t u a :
  alts_ok alts → t ∈ alts → u ∈ alts → nothrow t a = true → braces u a = false →
  emplace_type_compiles alts (Ty false t) a = false.
Proof.
  intros Hok Ht Hu Hn Hb. apply not_true_is_false. intros H.
  apply (C74_emplace_behaviour _ _ _ Hok) in H as (_ & _ & H). cbn [t_id] in H. rewrite Hn in H.
  apply H in Hu. congruence.
Qed.
(** and one that braces refuse (narrowing) is unavailable although T is constructible *)
Theorem C74_emplace_narrowing_refuted alts t a :
  alts_ok alts → t ∈ alts → parens t a = true → braces t a = false → emplace_type_compiles alts (Ty false t) a = false.
Proof.
  intros Hok Ht Hp Hb. apply not_true_is_false. intros H.
  apply (C74_emplace_behaviour _ _ _ Hok) in H as (_ & _ & H). cbn [t_id] in H. destruct (nothrow t a); [|congruence].
  apply H in Ht. congruence.
Qed.
(** emplace<Index> is emplace<T> for the alternative with that index, if there is one *)
Theorem C74_emplace_index alts i a :
  emplace_index_compiles alts i a = true ↔ ∃ t, alts !! i = Some t ∧ emplace_type_compiles alts (Ty false t) a = true.
Proof. unfold emplace_index_compiles. destruct (alts !! i) as [t|]; naive_solver. Qed.
End props.

(** ** Examples: 0 int, 1 double, 2 a class with a constructor X(int, int) that may throw, as in
    test/variant.cpp:23-35. Arguments are the types of variables *)
Definition from_to (t : nat) (a : list nat) : bool * bool * bool :=    (* braces, parens, nothrow *)
  match t, a with
  | (0 | 1), [] => (true, true, true)
  | 0, [0] | 1, [1] => (true, true, true)
  | 0, [1] | 1, [0] => (false, true, true)     (* narrowing *)
  | 2, [] | 2, [0; 0] => (true, true, false)
  | 2, [0; 1] | 2, [1; 0] | 2, [1; 1] => (false, true, false)
  | _, _ => (false, false, false)
  end.
Definition simple : EmplaceLang :=
  {| args := list nat; braces := λ t a, (from_to t a).1.1; parens := λ t a, (from_to t a).1.2; nothrow := λ t a, (from_to t a).2 |}.
Example C74_case :
  let em alts t a := @emplace_type_compiles simple alts (Ty false t) a in
  alts_ok [0; 1; 2] ∧
  em [0; 1; 2] 2 [0; 0] = true ∧ em [0; 1; 2] 2 [0; 1] = false ∧ em [0; 1] 0 [] = true ∧
  em [0] 0 [0] = true ∧
  em [0; 1] 0 [0] = false ∧ em [0; 1] 1 [1] = false ∧ em [0; 1] 1 [0] = false ∧
  @in_place_type_compiles simple [0; 1] (Ty false 1) [1] = true ∧
  @emplace_type_compiles simple [0] (Ty true 0) [0] = false.
Proof. vm_compute. repeat split; try lia. repeat (constructor; [intros H; repeat (apply elem_of_cons in H as [?|H]; [done|]); by apply elem_of_nil in H|]). constructor. Qed.

Print Assumptions C74_constructors.
Print Assumptions C74_constructors_others.
Print Assumptions C74_emplace_behaviour.
Print Assumptions C74_emplace_partial.
Print Assumptions C74_emplace_refuted.
Print Assumptions C74_emplace_narrowing_refuted.
Print Assumptions C74_emplace_index.
