(** Lemmas for C108. *)
From stdpp Require Import prelude sorting.
From Coq Require Import Lia.
From Verif Require Import RecursiveModel RecursiveSpec.

(** ** Complete types *)
(** a measure that decreases from a class to the types its definition needs *)
Fixpoint rank (t : ty) : nat :=
  match t with
  | Scalar | Text | Struct _ | Ptr _ => 0
  | Vec t | Arr t _ | Opt t => rank t + 2
  | Var t ts => rank t + list_sum (map (λ u, S (rank u)) ts) + 3
  | Tup ts => list_sum (map (λ u, S (rank u)) ts) + 2
  | ARef _ | ORef _ => 1
  | VRef _ ts => length ts + 4
  | FRef _ => 2
  end.
Definition irank (i : ity) : nat :=
  match i with
  | User t => rank t
  | CArray t => rank t + 1
  | VecStorage _ | FunStorage => 1
  | VarStorage ts | TupStorage ts => list_sum (map (λ u, S (rank u)) ts) + 1
  | VRefStorage ts => length ts + 1
  | FunTraits => 0
  end.
Definition iowned (i : ity) : list nat :=
  match i with
  | User t | CArray t => owned t
  | VecStorage _ | FunStorage | VRefStorage _ | FunTraits => []
  | VarStorage ts | TupStorage ts => concat (map owned ts)
  end.

Lemma rank_in t ts : t ∈ ts → rank t < list_sum (map (λ u, S (rank u)) ts).
Proof.
  intros H. induction ts as [|u ts IH]; [by apply elem_of_nil in H|].
  apply elem_of_cons in H as [->|H]; cbn [map list_sum fold_right]; [lia|]. specialize (IH H). unfold list_sum in IH. lia.
Qed.
Lemma owned_in t ts s : t ∈ ts → s ∈ owned t → s ∈ concat (map owned ts).
Proof. intros Ht Hs. apply elem_of_list_In, in_concat. exists (owned t). split; [|by apply elem_of_list_In]. by apply in_map, elem_of_list_In. Qed.
Lemma owned_of ts s : s ∈ concat (map owned ts) → ∃ t, t ∈ ts ∧ s ∈ owned t.
Proof.
  intros (l & Hl & Hs)%elem_of_list_In%in_concat. apply in_map_iff in Hl as (t & <- & Ht).
  exists t. by rewrite !elem_of_list_In.
Qed.
Lemma unique_wants ts j k : j ∈ unique ts → k ∈ wants j → False.
Proof.
  induction ts as [|t ts IH]; cbn [unique]; [by rewrite elem_of_nil|]. rewrite elem_of_app. intros [Hj|?] Hk; [|by apply IH].
  apply elem_of_list_In, in_map_iff in Hj as (u & <- & _). by apply elem_of_nil in Hk.
Qed.
Lemma tests_of (ts : list ty) (j : item) : j ∈ concat (tests <$> ts) ↔ ∃ t, t ∈ ts ∧ j = Test t.
Proof.
  induction ts as [|t ts IH]; [rewrite elem_of_nil; split; [done|intros (? & H & _); by apply elem_of_nil in H]|].
  rewrite fmap_cons. cbn [concat]. unfold tests at 1. rewrite elem_of_app, elem_of_list_singleton, IH. split.
  - intros [->|(u & ? & ->)]; [exists t; split; [left|done]|exists u; split; [by right|done]].
  - intros (u & Hu & ->). apply elem_of_cons in Hu as [->|]; eauto.
Qed.
Lemma sizes_of (ts : list ty) (j : item) : j ∈ SizeOf <$> (User <$> ts) ↔ ∃ t, t ∈ ts ∧ j = SizeOf (User t).
Proof.
  rewrite elem_of_list_fmap. split.
  - intros (i & -> & Hi). apply elem_of_list_fmap in Hi as (t & -> & Ht). eauto.
  - intros (t & Ht & ->). exists (User t). split; [done|]. by apply elem_of_list_fmap_1.
Qed.

Ltac member := repeat match goal with
  | H : _ ∈ [] |- _ => by apply elem_of_nil in H
  | H : _ ∈ _ :: _ |- _ => apply elem_of_cons in H as [->|H]
  | H : _ ∈ _ ++ _ |- _ => apply elem_of_app in H as [H|H]
  end.
(** the types needed are smaller and own no more *)
Lemma wants_smaller i j k : j ∈ items i → k ∈ wants j → irank k < irank i ∧ ∀ s, s ∈ iowned k → s ∈ iowned i.
Proof.
  intros Hj Hk. destruct i as [t|t|t|ts|ts|ts| |]; cbn [items] in Hj.
  - destruct t as [| |s|t|t|t n|t|t ts|ts|t|t|t ts|ts]; unfold tests in Hj; rewrite ?fmap_cons in Hj; cbn [concat] in Hj;
      member; cbn [wants] in Hk; member; cbn [irank iowned rank owned map list_sum fold_right length].
    all: try (split; [lia|intros s Hs; by (done || apply elem_of_nil in Hs)]).
    all: try (apply tests_of in Hj as (u & Hu & ->); cbn [wants] in Hk; member; cbn [irank iowned];
              pose proof (rank_in _ _ Hu); split; [lia|intros s Hs]).
    all: try (by eapply owned_in). all: try (apply elem_of_app; right; by eapply owned_in).
    + destruct (n =? 0); cbn [irank iowned rank owned]; split; try lia; intros s Hs; [by apply elem_of_nil in Hs|done].
    + split; [lia|]. intros s Hs. apply elem_of_app. by left.
    + by pose proof (unique_wants (t :: ts) j k Hj Hk).
    + unfold list_sum. split; [lia|done].
    + split; [lia|]. intros s Hs. apply elem_of_app. by left.
    + apply sizes_of in Hj as (u & Hu & ->). cbn [wants] in Hk. member. cbn [irank iowned].
      pose proof (rank_in _ _ Hu). split; [lia|]. intros s Hs. apply elem_of_app. right. by eapply owned_in.
    + unfold list_sum. split; [lia|done].
    + by pose proof (unique_wants (t :: ts) j k Hj Hk).
  - member. cbn [wants] in Hk. member. cbn [irank iowned]. split; [lia|done].
  - member; cbn [wants] in Hk; member; cbn [irank iowned rank owned]; (split; [lia|done]).
  - destruct ts as [|t ts]; member; cbn [wants] in Hk; member; cbn [irank iowned map list_sum fold_right concat]; unfold list_sum;
      (split; [lia|intros s Hs; apply elem_of_app; auto]).
  - destruct ts as [|t ts]; member; cbn [wants] in Hk; member; cbn [irank iowned map list_sum fold_right concat]; unfold list_sum;
      (split; [lia|intros s Hs; apply elem_of_app; auto]).
  - destruct ts as [|t ts]; member; cbn [wants] in Hk; member; cbn [irank iowned rank owned length]; (split; [lia|done]).
  - member. cbn [wants] in Hk. member. cbn [irank iowned rank owned]. split; [lia|done].
  - member.
Qed.
(** and what a class owns is owned by one of them *)
Lemma owned_wanted i s : (∀ u, i ≠ User (Struct u)) → s ∈ iowned i → ∃ j k, j ∈ items i ∧ k ∈ wants j ∧ s ∈ iowned k.
Proof.
  intros Hi Hs. destruct i as [t|t|t|ts|ts|ts| |]; cbn [iowned] in Hs; try (by apply elem_of_nil in Hs).
  - destruct t as [| |u|t|t|t n|t|t ts|ts|t|t|t ts|ts]; cbn [owned] in Hs; try (by apply elem_of_nil in Hs);
      try (exists (Test t), (User t); cbn [items wants iowned]; unfold tests; split_and!; [set_solver|set_solver|done]).
    + by destruct (Hi u).
    + assert (∃ u, u ∈ t :: ts ∧ s ∈ owned u) as (u & Hu & Hsu).
      { apply elem_of_app in Hs as [Hs|Hs]; [exists t; split; [left|done]|]. apply owned_of in Hs as (u & ? & ?). exists u. split; [by right|done]. }
      exists (Test u), (User u). cbn [items wants iowned]. split_and!; [|set_solver|done].
      apply elem_of_app. left. apply tests_of. eauto.
    + apply owned_of in Hs as (u & Hu & Hsu). exists (Test u), (User u). cbn [items wants iowned]. split_and!; [|set_solver|done].
      apply elem_of_app. left. apply tests_of. eauto.
  - exists (Member (User t)), (User t). cbn [items wants iowned]. split_and!; [set_solver|set_solver|done].
  - destruct ts as [|t ts]; [by apply elem_of_nil in Hs|]. cbn [map concat] in Hs. apply elem_of_app in Hs as [Hs|Hs].
    + exists (Member (User t)), (User t). cbn [items wants iowned]. split_and!; [set_solver|set_solver|done].
    + exists (Member (VarStorage ts)), (VarStorage ts). cbn [items wants iowned]. split_and!; [set_solver|set_solver|done].
  - destruct ts as [|t ts]; [by apply elem_of_nil in Hs|]. cbn [map concat] in Hs. apply elem_of_app in Hs as [Hs|Hs].
    + exists (Member (User t)), (User t). cbn [items wants iowned]. split_and!; [set_solver|set_solver|done].
    + exists (Base (TupStorage ts)), (TupStorage ts). cbn [items wants iowned]. split_and!; [set_solver|set_solver|done].
Qed.
Lemma is_struct i : (∃ s, i = User (Struct s)) ∨ ∀ s, i ≠ User (Struct s).
Proof. destruct i as [[]| | | | | | |]; eauto; right; congruence. Qed.
Lemma complete_iff (Γ : nat → Prop) i : complete Γ i ↔ ∀ s, s ∈ iowned i → Γ s.
Proof.
  split.
  - induction 1 as [s Hs|i Hi _ IH]; intros u Hu.
    + cbn [iowned owned] in Hu. apply elem_of_list_singleton in Hu as ->. done.
    + destruct (owned_wanted i u Hi Hu) as (j & k & Hj & Hk & Huk). by eapply IH.
  - remember (irank i) as n eqn:En. revert i En. induction (lt_wf n) as [n _ IH]. intros i -> Ho.
    destruct (is_struct i) as [[s ->]|Hi].
    + constructor. apply Ho. cbn [iowned owned]. set_solver.
    + apply complete_other; [done|]. intros j k Hj Hk. destruct (wants_smaller i j k Hj Hk) as [Hlt Hsub].
      eapply IH; [exact Hlt|done|]. auto.
Qed.

Lemma concat_sub (f g : ty → list nat) (ts : list ty) s : (∀ t, t ∈ ts → s ∈ f t → s ∈ g t) → s ∈ concat (map f ts) → s ∈ concat (map g ts).
Proof.
  induction ts as [|t ts IH]; intros H Hs; [done|]. cbn [map concat] in *. apply elem_of_app in Hs as [Hs|Hs]; apply elem_of_app.
  - left. apply H; [left|done].
  - right. apply IH; [|done]. intros u Hu. apply H. by right.
Qed.
Lemma ty_ind' (P : ty → Prop) : (∀ t, (∀ u, rank u < rank t → P u) → P t) → ∀ t, P t.
Proof. intros H t. remember (rank t) as n eqn:E. revert t E. induction (lt_wf n) as [n _ IH]. intros t ->. apply H. intros u Hu. by eapply IH. Qed.
Lemma inside_owned t s : s ∈ inside t → s ∈ owned t.
Proof.
  revert t. apply (ty_ind' (λ t, s ∈ inside t → s ∈ owned t)). intros t IH Hs.
  destruct t as [| |u|t|t|t [|n]|t|t ts|ts|t|t|t ts|ts]; cbn [inside owned rank] in *; try done; try (by apply elem_of_nil in Hs);
    try (apply IH; [lia|done]).
  - apply elem_of_app in Hs as [Hs|Hs]; apply elem_of_app; [left; apply IH; [lia|done]|right].
    eapply concat_sub; [|exact Hs]. intros u Hu. apply IH. pose proof (rank_in _ _ Hu). lia.
  - eapply concat_sub; [|exact Hs]. intros u Hu. apply IH. pose proof (rank_in _ _ Hu). lia.
Qed.
Lemma owned_names t s : s ∈ owned t → s ∈ names t.
Proof.
  revert t. apply (ty_ind' (λ t, s ∈ owned t → s ∈ names t)). intros t IH Hs.
  destruct t as [| |u|t|t|t n|t|t ts|ts|t|t|t ts|ts]; cbn [owned names rank] in *; try done; try (by apply elem_of_nil in Hs);
    try (apply IH; [lia|done]).
  - apply elem_of_app in Hs as [Hs|Hs]; apply elem_of_app; [left; apply IH; [lia|done]|right].
    eapply concat_sub; [|exact Hs]. intros u Hu. apply IH. pose proof (rank_in _ _ Hu). lia.
  - eapply concat_sub; [|exact Hs]. intros u Hu. apply IH. pose proof (rank_in _ _ Hu). lia.
Qed.

(** ** Translation units *)
Lemma defines_cons d ds s : defines (d :: ds) s ↔ (∃ ms, d = Define s ms) ∨ defines ds s.
Proof.
  unfold defines. setoid_rewrite elem_of_cons. split.
  - intros (ms & [<-|?]); eauto.
  - intros [(ms & ->)|(ms & ?)]; eauto.
Qed.
Lemma declares_cons d ds s : declares (d :: ds) s ↔ d = Forward s ∨ (∃ ms, d = Define s ms) ∨ declares ds s.
Proof.
  unfold declares. setoid_rewrite elem_of_cons. split.
  - intros [[<-|?]|(ms & [<-|?])]; eauto.
  - intros [->|[(ms & ->)|[?|(ms & ?)]]]; eauto.
Qed.
Lemma defines_nil s : ¬ defines [] s.
Proof. intros (ms & H). by apply elem_of_nil in H. Qed.
Lemma declares_nil s : ¬ declares [] s.
Proof. intros [H|(ms & H)]; by apply elem_of_nil in H. Qed.

Lemma accepts_iff ds : ∀ Δ Γ, accepts Δ Γ ds ↔
  ∀ pre s ms post, ds = pre ++ Define s ms :: post →
    (¬ Γ s ∧ ¬ defines pre s) ∧ (∀ t u, t ∈ ms → u ∈ names t → u = s ∨ Δ u ∨ declares pre u) ∧
    (∀ t u, t ∈ ms → u ∈ owned t → Γ u ∨ defines pre u).
Proof.
  induction ds as [|d ds IH]; intros Δ Γ.
  { split; [|intros _; constructor]. intros _ pre s ms post E. by destruct pre. }
  split.
  - intros Ha pre s ms post E. inversion Ha as [|s' ds' Hd|s' ms' ds' Hn Hnm Hc Hd]; subst.
    + destruct pre as [|p pre]; injection E as E0 E1; [done|]. subst p.
      destruct (proj1 (IH _ _) Hd _ _ _ _ E1) as ((H1 & H2) & H3 & H4). split_and!.
      * done.
      * rewrite defines_cons. by intros [[? ?]|?].
      * intros t u Ht Hu. rewrite declares_cons. destruct (H3 t u Ht Hu) as [?|[[->|?]|?]]; eauto.
      * intros t u Ht Hu. rewrite defines_cons. destruct (H4 t u Ht Hu); eauto.
    + destruct pre as [|p pre]; [injection E as -> -> ->|injection E as E0 E1].
      * split_and!; [done|apply defines_nil| |].
        -- intros t u Ht Hu. destruct (Hnm t u Ht Hu); eauto.
        -- intros t u Ht Hu. left. by apply (proj1 (complete_iff Γ (User t)) (Hc t Ht)).
      * subst p. destruct (proj1 (IH _ _) Hd _ _ _ _ E1) as ((H1 & H2) & H3 & H4). split_and!.
        -- tauto.
        -- rewrite defines_cons. intros [[? ?]|?]; [|done]. simplify_eq. apply H1. by left.
        -- intros t u Ht Hu. rewrite declares_cons. destruct (H3 t u Ht Hu) as [?|[[->|?]|?]]; eauto 10.
        -- intros t u Ht Hu. rewrite defines_cons. destruct (H4 t u Ht Hu) as [[->|?]|?]; eauto 10.
  - intros H. destruct d as [s|s ms]; constructor.
    + apply IH. intros pre u ms post ->. destruct (H (Forward s :: pre) u ms post eq_refl) as ((H1 & H2) & H3 & H4). split_and!.
      * done.
      * rewrite defines_cons in H2. tauto.
      * intros t v Ht Hv. destruct (H3 t v Ht Hv) as [?|[?|Hd]]; eauto 10. rewrite declares_cons in Hd.
        destruct Hd as [[= ->]|[(? & ?)|?]]; eauto 10. done.
      * intros t v Ht Hv. destruct (H4 t v Ht Hv) as [?|Hd]; eauto 10. rewrite defines_cons in Hd. destruct Hd as [(? & ?)|?]; eauto 10. done.
    + apply (H [] s ms ds eq_refl).
    + intros t u Ht Hu. destruct (H [] s ms ds eq_refl) as (_ & H3 & _).
      destruct (H3 t u Ht Hu) as [?|[?|Hd]]; eauto 10. by apply declares_nil in Hd.
    + intros t Ht. apply complete_iff. intros u Hu. destruct (H [] s ms ds eq_refl) as (_ & _ & H4).
      destruct (H4 t u Ht Hu) as [?|Hd]; [done|]. by apply defines_nil in Hd.
    + apply IH. intros pre u ms' post ->. destruct (H (Define s ms :: pre) u ms' post eq_refl) as ((H1 & H2) & H3 & H4). split_and!.
      * intros [->|?]; [|done]. apply H2. rewrite defines_cons. eauto.
      * rewrite defines_cons in H2. tauto.
      * intros t v Ht Hv. destruct (H3 t v Ht Hv) as [?|[?|Hd]]; eauto 10. rewrite declares_cons in Hd.
        destruct Hd as [?|[(? & [= <- <-])|?]]; eauto 10. done.
      * intros t v Ht Hv. destruct (H4 t v Ht Hv) as [?|Hd]; eauto 10. rewrite defines_cons in Hd.
        destruct Hd as [(? & [= <- <-])|?]; eauto 10.
Qed.
