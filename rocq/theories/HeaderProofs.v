(** Lemmas for C103. *)
From stdpp Require Import prelude strings.
From Verif Require Import HeaderModel HeaderSpec.

(** names that are used and not declared by what is included before *)
Fixpoint needs (l : list item) (acc : list string) : list string :=
  match l with
  | [] => []
  | Inc s :: l' => needs l' (declares s ++ acc)
  | Use _ n :: l' => if bool_decide (n ∈ acc) then needs l' acc else n :: needs l' acc
  | _ :: l' => needs l' acc
  end.
(** packing at the end, and definitions *)
Fixpoint pk (l : list item) (ps : list N) : option (list N * list def) :=
  match l with
  | [] => Some (ps, [])
  | Push n :: l' => pk l' (n :: ps)
  | Pop :: l' => match ps with [] => None | _ :: ps' => pk l' ps' end
  | Def _ n k ns :: l' => match pk l' ps with Some (ps', ds) => Some (ps', MkDef n k ns (head ps) :: ds) | None => None end
  | _ :: l' => pk l' ps
  end.
Fixpoint defined (l : list item) : list string :=
  match l with [] => [] | Def _ n _ _ :: l' => n :: defined l' | _ :: l' => defined l' end.
Lemma pk_names l ps ps' ds : pk l ps = Some (ps', ds) → d_name <$> ds = defined l.
Proof.
  revert ps ds. induction l as [|[] l IH]; intros ps ds E; cbn [pk defined] in *; [by injection E as <- <-|by eapply IH..|idtac|by eapply IH|].
  - destruct ps; [done|]. by eapply IH.
  - destruct (pk l ps) as [[ps2 ds2]|] eqn:E2; [|done]. injection E as <- <-. cbn [fmap list_fmap d_name]. f_equal. by eapply IH.
Qed.
Lemma needs_app l acc acc' n : n ∈ needs l (acc ++ acc') ↔ n ∈ needs l acc ∧ n ∉ acc'.
Proof.
  revert acc. induction l as [|[] l IH]; intros acc; cbn [needs]; [|auto| |auto|auto| |auto].
  - split; [intros []%elem_of_nil|by intros [[]%elem_of_nil _]].
  - by rewrite app_assoc, IH.
  - case_bool_decide as D; case_bool_decide as D'.
    + apply IH.
    + rewrite elem_of_cons. apply elem_of_app in D as [D|D]; [done|]. rewrite IH. naive_solver.
    + destruct D. apply elem_of_app. by left.
    + rewrite !elem_of_cons, IH. rewrite elem_of_app in D. naive_solver.
Qed.
Lemma needs_nil l acc : needs l acc = [] ↔ ∀ n, n ∈ needs l [] → n ∈ acc.
Proof.
  split.
  - intros E n I. destruct (decide (n ∈ acc)) as [|N]; [done|]. assert (n ∈ needs l ([] ++ acc)) as J by (by apply needs_app).
    cbn [app] in J. rewrite E in J. by apply elem_of_nil in J.
  - intros H. destruct (needs l acc) as [|n ns] eqn:E; [done|]. exfalso.
    assert (n ∈ needs l ([] ++ acc)) as J by (cbn [app]; rewrite E; left). apply needs_app in J as [J N]. auto.
Qed.

Lemma run_items_spec l : ∀ st ps' ds, pk l (packs st) = Some (ps', ds) → NoDup (d_name <$> defs st ++ ds) →
  (is_Some (run_items st l) ↔ needs l (declared st) = []) ∧
  ∀ st', run_items st l = Some st' → seen st' = seen st ∧ packs st' = ps' ∧ defs st' = defs st ++ ds ∧
    ∀ n, n ∈ declared st' ↔ n ∈ declared st ∨ ∃ s, Inc s ∈ l ∧ n ∈ declares s.
Proof.
  assert (∀ (i : item) l' (P : Prop) n, (∀ s, i ≠ Inc s) → (P ∨ ∃ s, Inc s ∈ i :: l' ∧ n ∈ declares s) ↔ (P ∨ ∃ s, Inc s ∈ l' ∧ n ∈ declares s)) as Sk.
  { intros i l' P n N. split; (intros [p|(s & I & J)]; [by left|right; exists s; split; [|done]]).
    - by apply elem_of_cons in I as [I|I]; [destruct (N s)|].
    - by right. }
  induction l as [|i l IH]; intros st ps' ds E N.
  - injection E as <- <-. cbn [run_items needs]. split; [by split|]. intros st' [= <-]. split_and!; [done|done|by rewrite app_nil_r|].
    intros n. split; [by left|]. intros [I|(s & []%elem_of_nil & _)]. done.
  - destruct i as [|s|m| |line n|line n k ns]; cbn [run_items run_item needs pk] in *.
    + destruct (IH st ps' ds E N) as [H1 H2]. split; [done|]. intros st' R. destruct (H2 _ R) as (S1 & S2 & S3 & S4). split_and!; [done..|].
      intros n. by rewrite S4, Sk.
    + destruct (IH (MkState (declares s ++ declared st) (seen st) (packs st) (defs st)) ps' ds E N) as [H1 H2]. split; [done|].
      intros st' R. destruct (H2 _ R) as (S1 & S2 & S3 & S4). split_and!; [done..|]. intros n. rewrite S4. cbn [declared].
      rewrite elem_of_app. split.
      * intros [[I|I]|(s' & I & J)]; [right; exists s; split; [left|done]|by left|right; exists s'; split; [by right|done]].
      * intros [I|(s' & I & J)]; [by left; right|]. apply elem_of_cons in I as [[= ->]|I]; [by left; left|]. right. eauto.
    + destruct (IH (MkState (declared st) (seen st) (m :: packs st) (defs st)) ps' ds E N) as [H1 H2]. split; [done|].
      intros st' R. destruct (H2 _ R) as (S1 & S2 & S3 & S4). split_and!; [done..|]. intros n. by rewrite S4, Sk.
    + destruct (packs st) as [|p ps]; [done|].
      destruct (IH (MkState (declared st) (seen st) ps (defs st)) ps' ds E N) as [H1 H2]. split; [done|].
      intros st' R. destruct (H2 _ R) as (S1 & S2 & S3 & S4). split_and!; [done..|]. intros n. by rewrite S4, Sk.
    + destruct (IH st ps' ds E N) as [H1 H2]. case_bool_decide as D.
      * split; [done|]. intros st' R. destruct (H2 _ R) as (S1 & S2 & S3 & S4). split_and!; [done..|]. intros n'. by rewrite S4, Sk.
      * split; [|done]. split; [by intros []|done].
    + destruct (pk l (packs st)) as [[ps2 ds2]|] eqn:E2; [|done]. injection E as <- <-.
      case_bool_decide as D.
      { rewrite fmap_app in N. apply NoDup_app in N as (_ & N & _). destruct (N _ D). left. }
      set (d := MkDef n k ns (head (packs st))) in *.
      destruct (IH (MkState (declared st) (seen st) (packs st) (defs st ++ [d])) ps2 ds2 E2) as [H1 H2].
      { cbn [defs]. by rewrite <- app_assoc. }
      split; [done|]. intros st' R. destruct (H2 _ R) as (S1 & S2 & S3 & S4). split_and!; [done|done| |].
      * rewrite S3. cbn [defs]. by rewrite <- app_assoc.
      * intros n'. by rewrite S4, Sk.
Qed.

(** ** The headers *)
Definition all_headers : list header :=
  [p_array; p_array_ref; p_bitset; p_function_ref; p_optional; p_optional_ref; p_string; p_string_ref; p_tuple; p_variant; p_variant_ref; p_vector].
Lemma in_all h : h ∈ all_headers.
Proof. destruct h; apply (bool_decide_unpack _); by vm_compute. Qed.
Definition defs_of (h : header) (ps : list N) : list def := match pk (items h) ps with Some (_, ds) => ds | None => [] end.
Lemma header_pk h ps : pk (items h) ps = Some (ps, defs_of h ps).
Proof. by destruct h. Qed.
Lemma header_once h : existsb once (items h) = true.
Proof. by destruct h. Qed.
Lemma header_needs h : needs (items h) [] = (missing h).*1.
Proof. destruct h; by vm_compute. Qed.
Lemma header_names h ps : d_name <$> defs_of h ps = defined (items h).
Proof. eapply pk_names, header_pk. Qed.
Lemma header_nodup h : NoDup (defined (items h)).
Proof. destruct h; apply (bool_decide_unpack _); by vm_compute. Qed.
Lemma header_apart h h' n : n ∈ defined (items h) → n ∈ defined (items h') → h = h'.
Proof.
  intros I J.
  assert (forallb (λ h, forallb (λ h', bool_decide (h = h') || forallb (λ n, negb (bool_decide (n ∈ defined (items h')))) (defined (items h))) all_headers) all_headers = true) as E
    by (by vm_compute).
  rewrite forallb_forall in E. specialize (E h (proj1 (elem_of_list_In _ _) (in_all h))).
  rewrite forallb_forall in E. specialize (E h' (proj1 (elem_of_list_In _ _) (in_all h'))).
  apply orb_true_iff in E as [E|E]; [by apply bool_decide_eq_true in E|].
  rewrite forallb_forall in E. specialize (E n (proj1 (elem_of_list_In _ _) I)). apply negb_true_iff, bool_decide_eq_false in E. done.
Qed.
Lemma header_packing h ps : Forall (λ d, d_pack d = packing ps (d_name d)) (defs_of h ps).
Proof. destruct h; vm_compute; repeat (apply Forall_cons_2; [done|]); apply Forall_nil_2. Qed.

(** ** Translation units *)
#[global] Instance directive_eq : EqDecision directive.
Proof. solve_decision. Defined.
Record inv (ps : list N) (pre : list directive) (st : state) : Prop := {
  inv_packs : packs st = ps;
  inv_declared n : n ∈ declared st ↔ ∃ s, brings pre s ∧ n ∈ declares s;
  inv_seen h : h ∈ seen st ↔ Ptl h ∈ pre;
  inv_nodup : NoDup (d_name <$> defs st);
  inv_defs d : d ∈ defs st ↔ ∃ h, Ptl h ∈ pre ∧ d ∈ defs_of h ps }.
Lemma inv_start ps : inv ps [] (MkState [] [] ps []).
Proof.
  split; cbn [packs declared seen defs].
  - done.
  - intros n. split; [intros []%elem_of_nil|]. intros (s & [[]%elem_of_nil|(h & []%elem_of_nil & _)] & _).
  - intros h. split; intros []%elem_of_nil.
  - constructor.
  - intros d. split; [intros []%elem_of_nil|]. intros (h & []%elem_of_nil & _).
Qed.
Definition ready (pre : list directive) (h : header) : Prop := ∀ n s, (n, s) ∈ missing h → ∃ s', brings pre s' ∧ n ∈ declares s'.
Lemma brings_std pre s s' : brings (pre ++ [Std s]) s' ↔ brings pre s' ∨ s' = s.
Proof.
  unfold brings. rewrite elem_of_app, elem_of_list_singleton. split.
  - intros [[I|[= ->]]|(h & I & J)]; [by left; left|by right|]. left. right. exists h. split; [|done].
    apply elem_of_app in I as [I|I%elem_of_list_singleton]; done.
  - intros [[I|(h & I & J)]| ->]; [by left; left| |by left; right]. right. exists h. split; [|done]. apply elem_of_app. by left.
Qed.
Lemma brings_ptl pre h s' : brings (pre ++ [Ptl h]) s' ↔ brings pre s' ∨ Inc s' ∈ items h.
Proof.
  unfold brings. rewrite elem_of_app, elem_of_list_singleton. split.
  - intros [[I|[=]]|(h' & I & J)]; [by left; left|]. apply elem_of_app in I as [I|I%elem_of_list_singleton].
    + left. right. eauto.
    + injection I as ->. by right.
  - intros [[I|(h' & I & J)]|J]; [by left; left| |].
    + right. exists h'. split; [|done]. apply elem_of_app. by left.
    + right. exists h. split; [|done]. apply elem_of_app. right. left.
Qed.
Lemma include_std ps pre st s : inv ps pre st → ∃ st', include st (Std s) = Some st' ∧ inv ps (pre ++ [Std s]) st'.
Proof.
  intros I. eexists. split; [done|]. split; cbn [packs declared seen defs].
  - apply I.
  - intros n. rewrite elem_of_app, (inv_declared _ _ _ I). split.
    + intros [J|(s' & B & J)]; [exists s; split; [apply brings_std; by right|done]|]. exists s'. split; [apply brings_std; by left|done].
    + intros (s' & B & J). apply brings_std in B as [B| ->]; [right; eauto|by left].
  - intros h. rewrite (inv_seen _ _ _ I), elem_of_app, elem_of_list_singleton. naive_solver.
  - apply I.
  - intros d. rewrite (inv_defs _ _ _ I). split; intros (h & J & K); exists h; (split; [|done]).
    + apply elem_of_app. by left.
    + by apply elem_of_app in J as [J|J%elem_of_list_singleton].
Qed.
Lemma include_seen ps pre st h : inv ps pre st → Ptl h ∈ pre → include st (Ptl h) = Some st ∧ inv ps (pre ++ [Ptl h]) st.
Proof.
  intros I J. split.
  { unfold include. rewrite header_once, bool_decide_true; [done|]. by apply (inv_seen _ _ _ I). }
  assert (∀ d, d ∈ pre ++ [Ptl h] ↔ d ∈ pre) as Eq.
  { intros d. rewrite elem_of_app, elem_of_list_singleton. naive_solver. }
  split.
  - apply I.
  - intros n. rewrite (inv_declared _ _ _ I). split; intros (s & B & K); exists s; (split; [|done]).
    + apply brings_ptl. by left.
    + apply brings_ptl in B as [B|B]; [done|]. right. eauto.
  - intros h'. by rewrite Eq, (inv_seen _ _ _ I).
  - apply I.
  - intros d. rewrite (inv_defs _ _ _ I). split; intros (h' & K & L); exists h'; [by rewrite Eq|by rewrite <- Eq].
Qed.
Lemma include_new ps pre st h : inv ps pre st → Ptl h ∉ pre →
  (is_Some (include st (Ptl h)) ↔ ready pre h) ∧ ∀ st', include st (Ptl h) = Some st' → inv ps (pre ++ [Ptl h]) st'.
Proof.
  intros I N. unfold include. rewrite header_once, bool_decide_false by (by rewrite (inv_seen _ _ _ I)). cbn [andb].
  destruct (run_items_spec (items h) (MkState (declared st) (h :: seen st) (packs st) (defs st)) ps (defs_of h ps)) as [H1 H2].
  { cbn [packs]. rewrite (inv_packs _ _ _ I). apply header_pk. }
  { cbn [defs]. rewrite fmap_app. apply NoDup_app. split_and!; [apply I| |rewrite header_names; apply header_nodup].
    intros n J K. apply elem_of_list_fmap in J as (d & -> & J). apply (inv_defs _ _ _ I) in J as (h' & J & L).
    rewrite header_names in K.
    assert (d_name d ∈ defined (items h')) as L' by (rewrite <- (header_names h' ps); apply elem_of_list_fmap; eauto).
    rewrite (header_apart _ _ _ K L') in N. done. }
  cbn [declared seen packs defs] in *. split.
  - rewrite H1, needs_nil, header_needs. split.
    + intros H n s J. apply (inv_declared _ _ _ I). apply H. apply elem_of_list_fmap. by exists (n, s).
    + intros R n J. apply elem_of_list_fmap in J as ([n' s] & -> & J). apply (inv_declared _ _ _ I). by eapply R.
  - intros st' R. destruct (H2 _ R) as (S1 & S2 & S3 & S4). split.
    + done.
    + intros n. rewrite S4, (inv_declared _ _ _ I). split.
      * intros [(s & B & J)|(s & J & K)]; exists s; (split; [|done]); apply brings_ptl; auto.
      * intros (s & B & J). apply brings_ptl in B as [B|B]; [left|right]; eauto.
    + intros h'. rewrite S1, elem_of_cons, (inv_seen _ _ _ I), elem_of_app, elem_of_list_singleton. naive_solver.
    + rewrite S3, fmap_app. apply NoDup_app. split_and!; [apply I| |rewrite header_names; apply header_nodup].
      intros n J K. apply elem_of_list_fmap in J as (d & -> & J). apply (inv_defs _ _ _ I) in J as (h' & J & L).
      rewrite header_names in K.
      assert (d_name d ∈ defined (items h')) as L' by (rewrite <- (header_names h' ps); apply elem_of_list_fmap; eauto).
      rewrite (header_apart _ _ _ K L') in N. done.
    + intros d. rewrite S3, elem_of_app, (inv_defs _ _ _ I). split.
      * intros [(h' & J & K)|J]; [exists h'; split; [apply elem_of_app; by left|done]|exists h; split; [apply elem_of_app; right; left|done]].
      * intros (h' & J & K). apply elem_of_app in J as [J|J%elem_of_list_singleton]; [left; eauto|]. injection J as ->. by right.
Qed.
Lemma compile_spec ps tu : ∀ pre st, inv ps pre st →
  (is_Some (compile_from st tu) ↔ ∀ pre' h post, tu = pre' ++ Ptl h :: post → Ptl h ∉ pre ++ pre' → ready (pre ++ pre') h) ∧
  ∀ st', compile_from st tu = Some st' → inv ps (pre ++ tu) st'.
Proof.
  induction tu as [|d tu IH]; intros pre st I; cbn [compile_from].
  - split; [split; [|done]|]. { intros _ [] h post E; discriminate E. } intros st' [= <-]. by rewrite app_nil_r.
  - assert ((∀ pre' h post, d :: tu = pre' ++ Ptl h :: post → Ptl h ∉ pre ++ pre' → ready (pre ++ pre') h) ↔
      (∀ h, d = Ptl h → Ptl h ∉ pre → ready pre h) ∧
      (∀ pre' h post, tu = pre' ++ Ptl h :: post → Ptl h ∉ (pre ++ [d]) ++ pre' → ready ((pre ++ [d]) ++ pre') h)) as Eq.
    { split.
      - intros H. split.
        + intros h -> N. rewrite <- (app_nil_r pre). eapply H; [done|by rewrite app_nil_r].
        + intros pre' h post -> N. rewrite <- app_assoc in *. cbn [app] in *. by eapply (H (d :: pre')).
      - intros [H1 H2] [|d' pre'] h post E N.
        + injection E as -> ->. rewrite app_nil_r in *. by apply H1.
        + injection E as -> ->. specialize (H2 pre' h post eq_refl). rewrite <- app_assoc in H2. by apply H2. }
    rewrite Eq. clear Eq. destruct d as [s|h].
    + destruct (include_std _ _ _ s I) as (st1 & -> & I1). destruct (IH _ _ I1) as [H1 H2]. split.
      * rewrite H1. split; [by intros H; split|by intros [_ H]].
      * intros st' E. rewrite cons_middle, app_assoc. by apply H2.
    + destruct (decide (Ptl h ∈ pre)) as [J|J].
      * destruct (include_seen _ _ _ _ I J) as [-> I1]. destruct (IH _ _ I1) as [H1 H2]. split.
        -- rewrite H1. split; [intros H; split; [by intros h' [= <-] N|done]|by intros [_ H]].
        -- intros st' E. rewrite cons_middle, app_assoc. by apply H2.
      * destruct (include_new _ _ _ _ I J) as [H1 H2]. destruct (include st (Ptl h)) as [st1|] eqn:E1.
        -- destruct (IH _ _ (H2 _ eq_refl)) as [H3 H4]. split.
           ++ rewrite H3. split; [intros H; split; [|done]|by intros [_ H]]. intros h' [= <-] _. by apply H1.
           ++ intros st' E. rewrite cons_middle, app_assoc. by apply H4.
        -- split; [|done]. split; [by intros []|]. intros [H _]. destruct (proj2 H1) as [st' [=]]. by apply H.
Qed.
Lemma compile_inv ps tu st : compile ps tu = Some st → inv ps tu st.
Proof. intros E. by apply (proj2 (compile_spec ps tu [] _ (inv_start ps))). Qed.
Lemma compile_from_app st a b : compile_from st (a ++ b) = match compile_from st a with Some st' => compile_from st' b | None => None end.
Proof. revert st. induction a as [|d a IH]; intros st; cbn [app compile_from]; [done|]. destruct (include st d); [apply IH|done]. Qed.

(** ** Several translation units *)
Definition safe (h : header) : bool :=
  forallb (λ d, (internal (d_kind d) || repeatable (d_kind d)) && forallb (λ e, negb (internal (d_kind e) && bool_decide (d_name e ∈ d_names d)))
    (mjoin (map (λ h', defs_of h' []) all_headers))) (defs_of h []).
Lemma pk_shape l : ∀ ps ps2 ds qs qs2 es, pk l ps = Some (ps2, ds) → pk l qs = Some (qs2, es) →
  Forall2 (λ d e, d_name d = d_name e ∧ d_kind d = d_kind e ∧ d_names d = d_names e) ds es.
Proof.
  induction l as [|[] l IH]; intros ps ps2 ds qs qs2 es E F; cbn [pk] in *.
  - injection E as <- <-. injection F as <- <-. constructor.
  - by eapply IH.
  - by eapply IH.
  - by eapply IH.
  - destruct ps; [done|]. destruct qs; [done|]. by eapply IH.
  - by eapply IH.
  - destruct (pk l ps) as [[p1 d1]|] eqn:E1; [|done]. destruct (pk l qs) as [[q1 e1]|] eqn:F1; [|done].
    injection E as <- <-. injection F as <- <-. constructor; [done|]. by eapply IH.
Qed.
Lemma defs_shape h ps d : d ∈ defs_of h ps → ∃ e, e ∈ defs_of h [] ∧ d_name d = d_name e ∧ d_kind d = d_kind e ∧ d_names d = d_names e.
Proof.
  intros I. pose proof (pk_shape _ _ _ _ _ _ _ (header_pk h ps) (header_pk h [])) as F.
  apply elem_of_list_lookup in I as [i I]. destruct (Forall2_lookup_l _ _ _ _ _ F I) as (e & J & K). exists e.
  split; [by eapply elem_of_list_lookup_2|done].
Qed.
Lemma safe_all h : safe h = bool_decide (h ≠ p_variant).
Proof. destruct h; by vm_compute. Qed.
Lemma safe_spec h ps d : h ≠ p_variant → d ∈ defs_of h ps → internal (d_kind d) = false →
  repeatable (d_kind d) = true ∧ ∀ h' e, e ∈ defs_of h' ps → d_name e ∈ d_names d → internal (d_kind e) = false.
Proof.
  intros N I K. pose proof (safe_all h) as S. rewrite bool_decide_true in S by done. unfold safe in S. rewrite forallb_forall in S.
  destruct (defs_shape _ _ _ I) as (d' & I' & E1 & E2 & E3). apply elem_of_list_In in I'. specialize (S _ I').
  apply andb_true_iff in S as [S1 S2]. rewrite <- E2 in S1. rewrite K in S1. split; [done|].
  intros h' e J L. rewrite forallb_forall in S2. destruct (defs_shape _ _ _ J) as (e' & J' & F1 & F2 & F3).
  specialize (S2 e'). rewrite F2. destruct (internal (d_kind e')) eqn:M; [|done].
  rewrite <- F1, <- E3, bool_decide_true in S2 by done. discriminate S2.
  apply elem_of_list_In, elem_of_list_join. exists (defs_of h' []). split; [done|]. apply elem_of_list_In, (in_map (λ h', defs_of h' [])), elem_of_list_In, in_all.
Qed.
Lemma consistent_iff ps ta tb a b : compile ps ta = Some a → compile ps tb = Some b →
  consistent a b ↔ ¬ (Ptl p_variant ∈ ta ∧ Ptl p_variant ∈ tb).
Proof.
  intros A%compile_inv B%compile_inv. split.
  - intros C [I J]. 
    set (d := nth 15 (defs_of p_variant ps) (MkDef "" Plain [] None)). set (e := nth 7 (defs_of p_variant ps) (MkDef "" Plain [] None)).
    assert (d ∈ defs_of p_variant ps) as Id. { apply elem_of_list_In, nth_In. vm_compute. lia. }
    assert (e ∈ defs_of p_variant ps) as Ie. { apply elem_of_list_In, nth_In. vm_compute. lia. }
    destruct (C d) as [_ C2].
    + apply (inv_defs _ _ _ A). eauto.
    + apply (inv_defs _ _ _ B). eauto.
    + by vm_compute.
    + specialize (C2 e). discriminate C2.
      * apply (inv_defs _ _ _ A). eauto.
      * apply (bool_decide_unpack _). by vm_compute.
  - intros N d I J K. apply (inv_defs _ _ _ A) in I as (h & I & L). apply (inv_defs _ _ _ B) in J as (h' & J & L').
    assert (h = h') as <-.
    { eapply (header_apart _ _ (d_name d)); rewrite <- (header_names _ ps); apply elem_of_list_fmap; eauto. }
    assert (h ≠ p_variant) as Nv by (intros ->; by apply N).
    destruct (safe_spec _ _ _ Nv L K) as [H1 H2]. split; [done|]. intros e M O. apply (inv_defs _ _ _ A) in M as (h2 & M & P). by eapply H2.
Qed.
Definition culprit (d e : string) : bool := bool_decide (d = "variant<Head, Tail...>" ∧ e = "internal_variant::determine_type").
Definition blamed (h : header) : bool :=
  forallb (λ d, (internal (d_kind d) || repeatable (d_kind d)) && forallb (λ e, negb (internal (d_kind e) && bool_decide (d_name e ∈ d_names d)) || culprit (d_name d) (d_name e))
    (mjoin (map (λ h', defs_of h' []) all_headers))) (defs_of h []).
Lemma blamed_all h : blamed h = true.
Proof. destruct h; by vm_compute. Qed.
Lemma blamed_spec h ps d : d ∈ defs_of h ps → internal (d_kind d) = false →
  repeatable (d_kind d) = true ∧ ∀ h' e, e ∈ defs_of h' ps → d_name e ∈ d_names d → internal (d_kind e) = true → culprit (d_name d) (d_name e) = true.
Proof.
  intros I K. pose proof (blamed_all h) as S. unfold blamed in S. rewrite forallb_forall in S.
  destruct (defs_shape _ _ _ I) as (d' & I' & E1 & E2 & E3). apply elem_of_list_In in I'. specialize (S _ I').
  apply andb_true_iff in S as [S1 S2]. rewrite <- E2 in S1. rewrite K in S1. split; [done|].
  intros h' e J L M. rewrite forallb_forall in S2. destruct (defs_shape _ _ _ J) as (e' & J' & F1 & F2 & F3).
  specialize (S2 e'). rewrite <- F2, M, <- F1, <- E3, <- E1, bool_decide_true in S2 by done. apply S2.
  apply elem_of_list_In, elem_of_list_join. exists (defs_of h' []). split; [done|]. apply elem_of_list_In, (in_map (λ h', defs_of h' [])), elem_of_list_In, in_all.
Qed.
