(** Property C25: comparison of vectors. *)
From stdpp Require Import prelude gmap.
From Coq Require Import ZArith Lia.
From Verif Require Import Cpp OrderSpec OrderModel OrderProofs VectorModel VectorSpec VectorMem VectorProofs
  VectorHistory VectorExtra VectorProps.
Local Open Scope nat_scope.

Section props.
Context `{C : VecCfg} `{E : !EltCmp V} (Hcfg : cfg_ok).
Notation state := (gmap nat (list V)).
(** the element type's operators as relations *)
Notation lt := (λ x y, elt_lt x y = true).
Notation eq := (λ x y, elt_eq x y = true).

Lemma shows_reads w m x l : shows w m → m !! x = Some l → reads w (vec_index x) 0 l.
Proof. intros Hs Hx i a Hi. specialize (Hs x). rewrite Hx in Hs. by apply Hs. Qed.
Lemma shows_size w m x l : shows w m → m !! x = Some l → vec_size x w = Ok (length l) w.
Proof. intros Hs Hx. specialize (Hs x). rewrite Hx in Hs. by apply Hs. Qed.

Lemma vec_lt_run w m x y a b : shows w m → m !! x = Some a → m !! y = Some b →
  ∃ r, vec_lt x y w = Ok r w ∧ (r = true ↔ lex_less lt a b).
Proof.
  intros Hs Hx Hy. pose proof (shows_size _ _ _ _ Hs Hx) as Sx. pose proof (shows_size _ _ _ _ Hs Hy) as Sy.
  destruct (std_lex_run w _ _ _ _ (shows_reads _ _ _ _ Hs Hx) (shows_reads _ _ _ _ Hs Hy)) as (r & Hr & Hspec).
  exists r. split; [|done]. unfold vec_lt, noexcept. erewrite bind_ok by done. erewrite bind_ok by done. by rewrite Hr.
Qed.
Lemma vec_eq_run w m x y a b : shows w m → m !! x = Some a → m !! y = Some b →
  ∃ r, vec_eq x y w = Ok r w ∧ (r = true ↔ all_equal eq a b).
Proof.
  intros Hs Hx Hy. pose proof (shows_size _ _ _ _ Hs Hx) as Sx. pose proof (shows_size _ _ _ _ Hs Hy) as Sy.
  destruct (std_equal_run w _ _ _ _ (shows_reads _ _ _ _ Hs Hx) (shows_reads _ _ _ _ Hs Hy)) as (r & Hr & Hspec).
  exists r. split; [|done]. unfold vec_eq, noexcept. erewrite bind_ok by done. erewrite bind_ok by done. by rewrite Hr.
Qed.

(** [r] is the answer to the question [P], given without changing anything *)
Definition answer (r : res world bool) (w : world) (P : Prop) : Prop :=
  ∃ b, r = Ok b w ∧ (b = true ↔ P).

(** ** C25 *)
(** for any element operators < and ==, lawful or not *)
Theorem C25_vector_comparisons w m x y a b :
  reachable w m → m !! x = Some a → m !! y = Some b →
  answer (vec_lt x y w) w (lex_less lt a b) ∧
  answer (vec_gt x y w) w (lex_less lt b a) ∧
  answer (vec_le x y w) w (¬ lex_less lt b a) ∧
  answer (vec_ge x y w) w (¬ lex_less lt a b) ∧
  answer (vec_eq x y w) w (all_equal eq a b) ∧
  answer (vec_ne x y w) w (¬ all_equal eq a b).
Proof.
  intros Hre Hx Hy. pose proof (C14_reachable_shows Hcfg _ _ Hre) as Hs.
  destruct (vec_lt_run w m x y a b Hs Hx Hy) as (r1 & H1 & S1).
  destruct (vec_lt_run w m y x b a Hs Hy Hx) as (r2 & H2 & S2).
  destruct (vec_eq_run w m x y a b Hs Hx Hy) as (r3 & H3 & S3).
  assert (vec_gt x y w = Ok r2 w) as H4 by (unfold vec_gt, noexcept; by rewrite H2).
  repeat apply conj.
  - by exists r1.
  - by exists r2.
  - exists (negb r2). split; [|by rewrite <-S2; destruct r2]. unfold vec_le, noexcept. by erewrite bind_ok by done.
  - exists (negb r1). split; [|by rewrite <-S1; destruct r1]. unfold vec_ge, noexcept. by erewrite bind_ok by done.
  - by exists r3.
  - exists (negb r3). split; [|by rewrite <-S3; destruct r3]. unfold vec_ne, noexcept. by erewrite bind_ok by done.
Qed.
(** if the element type is totally ordered the six operators answer according to one order *)
Theorem C25_vector_one_order w m x y a b :
  total_order lt eq → reachable w m → m !! x = Some a → m !! y = Some b →
  ∃ c, let r := answers_for c in
    vec_lt x y w = Ok (a_lt r) w ∧ vec_le x y w = Ok (a_le r) w ∧ vec_gt x y w = Ok (a_gt r) w ∧
    vec_ge x y w = Ok (a_ge r) w ∧ vec_eq x y w = Ok (a_eq r) w ∧ vec_ne x y w = Ok (a_ne r) w.
Proof.
  intros T Hre Hx Hy.
  destruct (C25_vector_comparisons w m x y a b Hre Hx Hy)
    as ((r1 & -> & S1) & (r2 & -> & S2) & (r3 & -> & S3) & (r4 & -> & S4) & (r5 & -> & S5) & (r6 & -> & S6)).
  assert (dec : ∀ u v : V, {elt_lt u v = true} + {¬ elt_lt u v = true}) by (intros u v; destruct (elt_lt u v); [by left|by right]).
  pose proof (lex_total _ _ T dec) as L. pose proof (lex_dec _ eq dec) as D.
  destruct (one_order _ _ _ _ _ _ _ _ _ _ L D S1 S2 S3 S4 S5 S6) as (c & Hc & _). exists c. by rewrite <-Hc.
Qed.
(** and that order is transitive *)
Theorem C25_vector_le_transitive w m x y z a b c :
  total_order lt eq → reachable w m → m !! x = Some a → m !! y = Some b → m !! z = Some c →
  vec_le x y w = Ok true w → vec_le y z w = Ok true w → vec_le x z w = Ok true w.
Proof.
  intros T Hre Hx Hy Hz Hxy Hyz.
  assert (dec : ∀ u v : V, {elt_lt u v = true} + {¬ elt_lt u v = true}) by (intros u v; destruct (elt_lt u v); [by left|by right]).
  pose proof (lex_total _ _ T dec) as L. pose proof (lex_dec _ eq dec) as D.
  destruct (C25_vector_comparisons w m x y a b Hre Hx Hy) as (_ & _ & (r1 & E1 & S1) & _).
  destruct (C25_vector_comparisons w m y z b c Hre Hy Hz) as (_ & _ & (r2 & E2 & S2) & _).
  destruct (C25_vector_comparisons w m x z a c Hre Hx Hz) as (_ & _ & (r3 & E3 & S3) & _).
  rewrite E3. f_equal. apply S3. rewrite Hxy in E1. injection E1 as <-. rewrite Hyz in E2. injection E2 as <-.
  pose proof (proj1 S1 eq_refl) as H1. pose proof (proj1 S2 eq_refl) as H2.
  by apply (order_le_trans _ _ _ _ _ L D H1 H2).
Qed.
End props.

(** ** Examples *)
Global Instance nat_cmp : EltCmp nat := {| elt_lt := Nat.ltb; elt_eq := Nat.eqb |}.
Lemma nat_total : total_order (λ x y : nat, elt_lt x y = true) (λ x y : nat, elt_eq x y = true).
Proof.
  split; cbn [elt_lt elt_eq nat_cmp].
  - intros x. rewrite Nat.ltb_lt. lia.
  - intros x y z. rewrite !Nat.ltb_lt. lia.
  - intros x y. rewrite !Nat.ltb_lt, Nat.eqb_eq. lia.
  - intros x y z. rewrite !Nat.eqb_eq. lia.
Qed.
Definition yes {S} (r : res S bool) (a : bool) : bool := match r with Ok b _ => Bool.eqb a b | _ => false end.
Definition six (w : @world good) (x y : nat) : list bool :=
  (λ f : nat → nat → M (@world good) bool, yes (f x y w) true)
    <$> [@vec_lt good nat_cmp; @vec_le good nat_cmp; @vec_gt good nat_cmp; @vec_ge good nat_cmp;
         @vec_eq good nat_cmp; @vec_ne good nat_cmp].
(** [1; 2] < [1; 2; 3], [1; 2; 3] < [1; 3], equal vectors, the empty vector *)
Example C25_case : ∃ w m, @reachable good w m ∧
  is [1; 2] (m !! 0) && is [1; 2; 3] (m !! 1) && is [1; 3] (m !! 2) && is [] (m !! 3) && is [1; 3] (m !! 4) &&
  bool_decide (six w 0 1 = [true; true; false; false; false; true]) &&
  bool_decide (six w 1 2 = [true; true; false; false; false; true]) &&
  bool_decide (six w 2 1 = [false; false; true; true; false; true]) &&
  bool_decide (six w 2 4 = [false; true; false; true; true; false]) &&
  bool_decide (six w 3 0 = [true; true; false; false; false; true]) = true.
Proof.
  apply (check_reachable _ _ _ ([VNew 0] ++ pushes 0 [1; 2] ++ [VNew 1] ++ pushes 1 [1; 2; 3] ++ [VNew 2] ++ pushes 2 [1; 3] ++
    [VNew 3; VNewCopy 4 2])). by vm_compute.
Qed.

Print Assumptions C25_vector_comparisons.
Print Assumptions C25_vector_one_order.
Print Assumptions C25_vector_le_transitive.
