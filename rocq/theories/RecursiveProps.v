(** C108: a struct may refer to itself, and structs to each other, through the containers and views of the library. *)
From stdpp Require Import prelude sorting.
From Coq Require Import Lia.
From Verif Require Import RecursiveModel RecursiveSpec Recursive.
Local Open Scope nat_scope.

(** a translation unit is accepted iff structs are declared before they are named and defined before they are owned *)
Theorem C108_order_partial ds : compiles ds ↔ named ds ∧ sorted owned ds.
Proof.
  unfold compiles. rewrite accepts_iff. unfold named, sorted. split.
  - intros H. split.
    + intros pre s ms post E. destruct (H _ _ _ _ E) as ((_ & H2) & H3 & _). split; [done|].
      intros t u Ht Hu. destruct (H3 t u Ht Hu) as [?|[[]|?]]; auto.
    + intros pre s ms post E t u Ht Hu. destruct (H _ _ _ _ E) as (_ & _ & H4). by destruct (H4 t u Ht Hu) as [[]|?].
  - intros [Hn Hs] pre s ms post E. destruct (Hn _ _ _ _ E) as [H2 H3]. split_and!.
    + by intros [].
    + done.
    + intros t u Ht Hu. destruct (H3 t u Ht Hu); auto.
    + intros t u Ht Hu. right. by eapply Hs.
Qed.

(** so structs whose members are pointers and views may refer to themselves and to each other in any way *)
Theorem C108_views ds : (∀ s ms t, Define s ms ∈ ds → t ∈ ms → owned t = []) → compiles ds ↔ named ds.
Proof.
  intros H. rewrite C108_order_partial. split; [tauto|]. intros Hn. split; [done|].
  intros pre s ms post -> t u Ht Hu. rewrite (H s ms t) in Hu; [by apply elem_of_nil in Hu| |done]. set_solver.
Qed.

Lemma fmap_split {A B} (f : A → B) (l : list A) (pre post : list B) (b : B) : f <$> l = pre ++ b :: post →
  ∃ l1 a l2, l = l1 ++ a :: l2 ∧ pre = f <$> l1 ∧ b = f a ∧ post = f <$> l2.
Proof.
  intros E. apply fmap_app_inv in E as (l1 & l' & -> & E & ->). symmetry in E. apply fmap_cons_inv in E as (a & l2 & -> & -> & ->).
  by exists l1, a, l2.
Qed.
Lemma unit_split (ss : structs) pre s ms post : unit_of ss = pre ++ Define s ms :: post →
  ∃ s1 s2, ss = s1 ++ (s, ms) :: s2 ∧ pre = ((λ p, Forward p.1) <$> ss) ++ ((λ p, Define p.1 p.2) <$> s1).
Proof.
  unfold unit_of. intros E. apply app_eq_inv in E as [(k & E1 & E2)|(k & E1 & E2)].
  - destruct k as [|d k].
    + rewrite app_nil_r in E1. cbn [app] in E2. symmetry in E2.
      destruct (fmap_split _ ss [] post (Define s ms) E2) as (l1 & [a b] & l2 & E & E3 & [= -> ->] & _).
      exists l1, l2. split; [done|]. by rewrite <- E3, app_nil_r, E1.
    + injection E2 as <- _. destruct (fmap_split _ _ _ _ _ E1) as (? & ? & ? & _ & _ & ? & _). done.
  - destruct (fmap_split _ _ _ _ _ E2) as (l1 & [a b] & l2 & E & E3 & [= -> ->] & _).
    exists l1, l2. split; [done|]. by rewrite E1, E3.
Qed.
Lemma defines_unit (s1 : structs) (ss : structs) s :
  defines (((λ p, Forward p.1) <$> ss) ++ ((λ p, Define p.1 p.2) <$> s1)) s ↔ s ∈ s1.*1.
Proof.
  unfold defines. split.
  - intros (ms & H). apply elem_of_app in H as [H|H]; apply elem_of_list_fmap in H as (p & ? & Hp); [done|].
    simplify_eq. apply elem_of_list_fmap. eauto.
  - intros H. apply elem_of_list_fmap in H as ([a b] & -> & Hp). exists b. apply elem_of_app. right.
    apply elem_of_list_fmap. by exists (a, b).
Qed.
Lemma declares_unit (s1 : structs) (ss : structs) s : s ∈ ss.*1 →
  declares (((λ p, Forward p.1) <$> ss) ++ ((λ p, Define p.1 p.2) <$> s1)) s.
Proof.
  intros H. apply elem_of_list_fmap in H as (p & -> & Hp). left. apply elem_of_app. left. apply elem_of_list_fmap. eauto.
Qed.

(** ** Orders *)
Section order.
Context {A : Type} `{EqDecision A} (R : relation A) `{!RelDecision R} (Hacyclic : ∀ x, ¬ tc R x x).

Lemma sink_from (l : list A) n : ∀ (v : list A) x, length l < length v + n → NoDup v → v ⊆ l → x ∈ v → (∀ y, y ∈ v → rtc R y x) →
  ∃ m, m ∈ l ∧ ∀ y, y ∈ l → ¬ R m y.
Proof.
  induction n as [|n IH]; intros v x Hn Hv Hl Hx Hr.
  - pose proof (submseteq_length _ _ (NoDup_submseteq _ _ Hv Hl)). lia.
  - destruct (decide (Exists (λ y, R x y) l)) as [He|He].
    + apply Exists_exists in He as (y & Hy & Hxy). destruct (decide (y ∈ v)) as [Hyv|Hyv].
      * destruct (Hacyclic y). eapply tc_rtc_l; [by apply Hr|by constructor].
      * apply (IH (y :: v) y).
        -- cbn [length]. lia.
        -- by constructor.
        -- intros z Hz. apply elem_of_cons in Hz as [->|Hz]; auto.
        -- left.
        -- intros z Hz. apply elem_of_cons in Hz as [->|Hz]; [done|]. eapply rtc_r; [by apply Hr|done].
    + exists x. split; [by apply Hl|]. intros y Hy Hxy. apply He, Exists_exists. eauto.
Qed.
Lemma sink (l : list A) : l ≠ [] → ∃ m, m ∈ l ∧ ∀ y, y ∈ l → ¬ R m y.
Proof.
  destruct l as [|x l]; [done|]. intros _. apply (sink_from (x :: l) (length (x :: l)) [x] x).
  - cbn [length]. lia.
  - apply NoDup_singleton.
  - intros y Hy. apply elem_of_list_singleton in Hy as ->. left.
  - left.
  - intros y Hy. by apply elem_of_list_singleton in Hy as ->.
Qed.
Lemma order_of n : ∀ l : list A, length l = n →
  ∃ l', l' ≡ₚ l ∧ ∀ l1 a l2, l' = l1 ++ a :: l2 → ∀ y, y ∈ l → R a y → y ∈ l1.
Proof.
  induction n as [|n IH]; intros l Hl.
  - exists []. destruct l; [|done]. split; [done|]. intros l1 a l2 E. by destruct l1.
  - destruct (sink l) as (m & Hm & Hs); [by intros ->|].
    apply elem_of_Permutation in Hm as [k Hk]. destruct (IH k) as (k' & Hk' & Ho).
    { apply Permutation_length in Hk. cbn [length] in Hk. lia. }
    exists (m :: k'). split; [by rewrite Hk, Hk'|]. intros l1 a l2 E y Hy Hay. destruct l1 as [|b l1].
    + injection E as -> ->. by destruct (Hs y).
    + injection E as -> E. rewrite Hk in Hy. apply elem_of_cons in Hy as [->|Hy]; [left|]. right. by eapply Ho.
Qed.
End order.

Lemma owns_iff (ss : structs) s u :
  Exists (λ p : nat * list ty, p.1 = s ∧ Exists (λ t, u ∈ owned t) p.2) ss ↔ owns ss s u.
Proof.
  unfold owns. rewrite Exists_exists. setoid_rewrite Exists_exists. split.
  - intros ([a b] & Hp & <- & t & Ht & Hu). eauto.
  - intros (ms & t & Hp & Ht & Hu). exists (s, ms). cbn [fst snd]. eauto.
Qed.
#[local] Instance owns_dec (ss : structs) : RelDecision (owns ss).
Proof. intros s u. destruct (decide (Exists (λ p : nat * list ty, p.1 = s ∧ Exists (λ t, u ∈ owned t) p.2) ss)) as [H|H]; [left|right]; by rewrite <- owns_iff. Defined.

(** structs can be put in an order that is accepted iff no struct owns itself, directly or through others *)
Theorem C108_cycles_partial (ss : structs) : NoDup ss.*1 → (∀ s ms t u, (s, ms) ∈ ss → t ∈ ms → u ∈ names t → u ∈ ss.*1) →
  (∃ ss', ss' ≡ₚ ss ∧ compiles (unit_of ss')) ↔ ∀ s, ¬ tc (owns ss) s s.
Proof.
  intros Hd Hm. split.
  - intros (ss' & Hp & Hc) s Hs. apply C108_order_partial in Hc as [_ Hc].
    assert (NoDup ss'.*1) as Hd' by (by rewrite Hp).
    assert (∀ a b, tc (owns ss) a b → ∃ i j, ss'.*1 !! i = Some b ∧ ss'.*1 !! j = Some a ∧ i < j) as H.
    { assert (∀ a b, owns ss a b → ∃ i j, ss'.*1 !! i = Some b ∧ ss'.*1 !! j = Some a ∧ i < j) as H1.
      { intros a b (ms & t & Ha & Ht & Hb). rewrite <- Hp in Ha. apply elem_of_list_split in Ha as (s1 & s2 & E).
        assert (defines (((λ p, Forward p.1) <$> ss') ++ ((λ p, Define p.1 p.2) <$> s1)) b) as Hdf.
        { eapply (Hc _ a ms ((λ p, Define p.1 p.2) <$> s2)); [|exact Ht|exact Hb].
          unfold unit_of. rewrite E at 2. by rewrite fmap_app, <- app_assoc. }
        apply defines_unit in Hdf. apply elem_of_list_lookup in Hdf as [i Hi].
        exists i, (length s1). rewrite E, fmap_app. split_and!.
        - by apply lookup_app_l_Some.
        - rewrite lookup_app_r; rewrite fmap_length; [|lia]. by rewrite Nat.sub_diag.
        - apply lookup_lt_Some in Hi. by rewrite fmap_length in Hi. }
      induction 1 as [a b Hab|a b c Hab _ (i & j & Hi & Hj & Hij)]; [by apply H1|].
      destruct (H1 a b Hab) as (i' & j' & Hi' & Hj' & Hij'). assert (i' = j) as -> by (eapply NoDup_lookup; eauto).
      exists i, j'. split_and!; [done|done|lia]. }
    destruct (H s s Hs) as (i & j & Hi & Hj & Hij). assert (i = j) by (eapply NoDup_lookup; eauto). lia.
  - intros Ha. destruct (order_of (owns ss) Ha _ ss.*1 eq_refl) as (l & Hl & Ho).
    destruct (Permutation_map_inv fst ss Hl) as (ss' & -> & Hp). exists ss'. split; [done|].
    assert (NoDup ss'.*1) as Hd' by (by rewrite <- Hp).
    apply C108_order_partial. split.
    + intros pre s ms post E. destruct (unit_split _ _ _ _ _ E) as (s1 & s2 & E' & ->). split.
      * rewrite defines_unit. rewrite E', fmap_app, fmap_cons in Hd'. cbn [fst] in Hd'.
        apply NoDup_app in Hd' as (_ & H & _). intros Hs. destruct (H _ Hs). left.
      * intros t u Ht Hu. right. apply declares_unit. rewrite <- Hp. eapply (Hm s); [|exact Ht|exact Hu].
        rewrite Hp, E'. set_solver.
    + intros pre s ms post E t u Ht Hu. destruct (unit_split _ _ _ _ _ E) as (s1 & s2 & E' & ->).
      apply defines_unit. assert ((s, ms) ∈ ss) as Hs by (rewrite Hp, E'; set_solver).
      apply (Ho s1.*1 s s2.*1).
      * by rewrite E', map_app.
      * eapply Hm; [exact Hs|exact Ht|by apply owned_names].
      * by exists ms, t.
Qed.
(** whatever is accepted has a layout: what it has inside is defined before *)
Theorem C108_layout ds : compiles ds → sorted inside ds.
Proof.
  intros [_ H]%C108_order_partial pre s ms post E t u Ht Hu. eapply H; [exact E|exact Ht|by apply inside_owned].
Qed.
(** but a struct must not even own itself on the heap, and no order helps *)
Theorem C108_heap_refuted ds s ms t : Define s ms ∈ ds → t ∈ ms → s ∈ owned t → ¬ compiles ds.
Proof.
  intros Hd Ht Hs Hc. apply C108_order_partial in Hc as [Hn Hc].
  apply elem_of_list_split in Hd as (pre & post & E). destruct (Hn _ _ _ _ E) as [H _]. apply H. by eapply Hc.
Qed.
(** struct s { vector<s> v; }; and struct s { array<s, 0> a; }; have a layout *)
Theorem C108_vector_refuted s t : t = Vec (Struct s) ∨ t = Arr (Struct s) 0 →
  named [Define s [t]] ∧ sorted inside [Define s [t]] ∧ ¬ compiles [Define s [t]].
Proof.
  intros Ht. split_and!.
  - intros pre u ms post E. destruct pre as [|p [|]]; [|done..]. injection E as <- <- _. split; [apply defines_nil|].
    intros t' u ->%elem_of_list_singleton Hu. destruct Ht as [-> | ->]; apply elem_of_list_singleton in Hu; auto.
  - intros pre u ms post E t' v Ht' Hv. destruct pre as [|p [|]]; [|done..]. injection E as <- <- _.
    apply elem_of_list_singleton in Ht' as ->. destruct Ht as [-> | ->]; by apply elem_of_nil in Hv.
  - eapply C108_heap_refuted; [left|left|]. destruct Ht as [-> | ->]; left.
Qed.

(** ** Examples *)
(** struct node { int i; array_ref<node> children; optional_ref<node> parent; vector<optional_ref<node>> all;
    optional<variant_ref<node, string>> other; function_ref<void(node &)> call; node * next; }; *)
Notation node := [Scalar; ARef (Struct 0); ORef (Struct 0); Vec (ORef (Struct 0)); Opt (VRef (Struct 0) [Text]);
  FRef [Ptr (Struct 0)]; Ptr (Struct 0)].
Example C108_views_case : (∀ s ms t, Define s ms ∈ [Define 0 node] → t ∈ ms → owned t = []) ∧ compiles [Define 0 node].
Proof.
  assert (∀ s ms t, Define s ms ∈ [Define 0 node] → t ∈ ms → owned t = []) as H.
  { intros s ms t [= -> ->]%elem_of_list_singleton Ht.
    repeat (apply elem_of_cons in Ht as [->|Ht]; [reflexivity|]). by apply elem_of_nil in Ht. }
  split; [exact H|]. apply C108_views; [exact H|]. intros pre s ms post E. destruct pre as [|p [|]]; [|done..].
  injection E as <- <- _. split; [apply defines_nil|]. intros t u Ht Hu. left.
  repeat (apply elem_of_cons in Ht as [->|Ht]; [cbn [names map concat app] in Hu; set_solver|]). by apply elem_of_nil in Ht.
Qed.
(** two structs that refer to each other, one of which owns the other: the owner must come last *)
Notation tree := [(0, [Vec (Struct 1); Text]); (1, [ORef (Struct 0); Tup [Scalar; ARef (Struct 1)]])].
Example C108_cycles_case : NoDup tree.*1 ∧ (∀ s ms t u, (s, ms) ∈ tree → t ∈ ms → u ∈ names t → u ∈ tree.*1) ∧
  (∀ s, ¬ tc (owns tree) s s) ∧ compiles (unit_of (reverse tree)) ∧ ¬ compiles (unit_of tree).
Proof.
  assert (∀ s u, owns tree s u → s = 0 ∧ u = 1) as Ho.
  { intros s u (ms & t & Hs & Ht & Hu). apply elem_of_cons in Hs as [[= -> ->]|[= -> ->]%elem_of_list_singleton].
    - apply elem_of_cons in Ht as [->| ->%elem_of_list_singleton]; cbn [owned] in Hu; set_solver.
    - apply elem_of_cons in Ht as [->| ->%elem_of_list_singleton]; cbn [owned map concat app] in Hu; set_solver. }
  split_and!.
  - by apply (bool_decide_unpack _).
  - intros s ms t u Hs Ht Hu. cbn [fmap list_fmap fst].
    apply elem_of_cons in Hs as [[= -> ->]|[= -> ->]%elem_of_list_singleton];
      apply elem_of_cons in Ht as [->| ->%elem_of_list_singleton]; cbn [names map concat app] in Hu; set_solver.
  - assert (∀ s u, tc (owns tree) s u → s = 0 ∧ u = 1) as Ht.
    { induction 1 as [s u H|s u v H _ [-> ->]]; [by apply Ho|]. apply Ho in H. lia. }
    intros s Hs. apply Ht in Hs. lia.
  - change (reverse tree) with [(1, [ORef (Struct 0); Tup [Scalar; ARef (Struct 1)]]); (0, [Vec (Struct 1); Text])].
    apply C108_order_partial. split.
    + intros pre s ms post E. destruct (unit_split _ _ _ _ _ E) as (s1 & s2 & E' & ->). split.
      * rewrite defines_unit. destruct s1 as [|? [|? s1]]; [| |by destruct s1]; injection E'; intros; subst; cbn [fmap list_fmap fst]; set_solver.
      * intros t u Ht Hu. right. apply declares_unit.
        destruct s1 as [|? [|? s1]]; [| |by destruct s1]; injection E'; intros; subst; cbn [fmap list_fmap fst];
          apply elem_of_cons in Ht as [->| ->%elem_of_list_singleton]; cbn [names map concat app] in Hu; set_solver.
    + intros pre s ms post E t u Ht Hu. destruct (unit_split _ _ _ _ _ E) as (s1 & s2 & E' & ->). apply defines_unit.
      destruct s1 as [|? [|? s1]]; [| |by destruct s1]; injection E'; intros; subst; cbn [fmap list_fmap fst];
        apply elem_of_cons in Ht as [->| ->%elem_of_list_singleton]; cbn [owned map concat app] in Hu; set_solver.
  - intros [_ H]%C108_order_partial. specialize (H [Forward 0; Forward 1] 0 _ _ eq_refl (Vec (Struct 1)) 1).
    destruct H as [ms H]; [left|left|]. set_solver.
Qed.
(** struct node { vector<node> children; }; is rejected, also inside other containers *)
Example C108_vector_case : ¬ compiles [Define 0 [Scalar; Vec (Struct 0)]] ∧
  ¬ compiles [Forward 0; Define 0 [Opt (Tup [Text; Vec (Struct 0)])]] ∧ inside (Opt (Tup [Text; Vec (Struct 0)])) = [].
Proof.
  split_and!; [| |done].
  - eapply C108_heap_refuted; [left|right; left|]. left.
  - eapply C108_heap_refuted; [right; left|left|]. left.
Qed.

Print Assumptions C108_order_partial.
Print Assumptions C108_views.
Print Assumptions C108_cycles_partial.
Print Assumptions C108_layout.
Print Assumptions C108_heap_refuted.
Print Assumptions C108_vector_refuted.
