(** Property C64: tuple. *)
From stdpp Require Import prelude gmap.
From Verif Require Import Cpp OrderSpec OrderProofs TupleModel TupleSpec TupleProofs.

Section props.
Context `{C : TupCfg}.
Notation state := (gmap nat (list V)).
Notation N := (length Types).
Implicit Types (w : world) (m : state).

(** ** What tuples show to the program *)
(** get<i>(x) refers to [v] *)
Definition component w (x i : nat) (v : V) : Prop := ∃ s, tup_get i x w = Ok s w ∧ rd s w = Ok v w.
(** the tuples are those of [m] *)
Definition shows w m : Prop := ∀ x,
  match m !! x with
  | Some l => length l = N ∧ ∀ i v, l !! i = Some v → component w x i v
  | None => alive x w = Stuck NoObject
  end.
Lemma get_run m n x l i : m !! x = Some l → i < N → tup_get i x (World m n) = Ok (x, i) (World m n).
Proof. intros Hx Hi. apply noexcept_ok. unfold bind. rewrite (alive_run _ _ _ _ Hx). by apply (st_get_run Types i x 0). Qed.
Lemma wf_component m n x l i v : wf m → m !! x = Some l → l !! i = Some v → component (World m n) x i v.
Proof.
  intros Hw Hx Hi. exists (x, i). pose proof (lookup_lt_Some _ _ _ Hi). pose proof (Hw _ _ Hx).
  split; [eapply get_run; [done|lia]|by eapply rd_run].
Qed.
Lemma wf_shows m n : wf m → shows (World m n) m.
Proof.
  intros Hw x. destruct (m !! x) as [l|] eqn:Hx.
  - split; [by apply (Hw x)|]. intros i v. by apply wf_component.
  - unfold alive. cbn [tups]. by rewrite Hx.
Qed.
Lemma reachable_inv w m : reachable w m → ∃ os rs n, srun os ∅ 0 = Some (rs, m, n) ∧ w = World m n ∧ wf m.
Proof.
  intros (os & rs & rs' & n & Hs & Ha). destruct (trun_run _ _ _ _ _ _ wf_empty Hs) as [E Hw].
  unfold init_world in Ha. rewrite E in Ha. injection Ha as <- <-. by exists os, rs, n.
Qed.

(** ** C64: values *)
(** every history inside the contract runs to its end with the results of the same history on
    lists of values, in which nothing recurses over component types *)
Theorem C64_tuple_is_sequence os rs m n :
  srun os ∅ 0 = Some (rs, m, n) → ∃ w, trun os init_world = Finished rs w ∧ shows w m.
Proof.
  intros H. destruct (trun_run os _ _ _ _ _ wf_empty H) as [E Hw]. exists (World m n). split; [done|]. by apply wf_shows.
Qed.
Lemma srun_app os1 os2 : ∀ m n rs1 m1 n1, srun os1 m n = Some (rs1, m1, n1) →
  srun (os1 ++ os2) m n = match srun os2 m1 n1 with Some (rs2, m2, n2) => Some (rs1 ++ rs2, m2, n2) | None => None end.
Proof.
  induction os1 as [|o os1 IH]; intros m n rs1 m1 n1 H; cbn [srun app] in *.
  - injection H as <- <- <-. by destruct (srun os2 m n) as [[[? ?] ?]|].
  - destruct (sstep o m) as [|r m2 ds]; [done|]. destruct (settle n ds) as [[d|] n2].
    + destruct (srun os1 d n2) as [[[rs3 m3] n3]|] eqn:E; [|done]. injection H as <- <- <-. rewrite (IH _ _ _ _ _ E). by destruct (srun os2 m3 n3) as [[[? ?] ?]|].
    + destruct (srun os1 m2 n2) as [[[rs3 m3] n3]|] eqn:E; [|done]. injection H as <- <- <-. rewrite (IH _ _ _ _ _ E). by destruct (srun os2 m3 n3) as [[[? ?] ?]|].
Qed.
Lemma srun_reachable os rs m n : srun os ∅ 0 = Some (rs, m, n) → reachable (World m n) m.
Proof. intros H. exists os, rs, rs, n. split; [done|]. by apply (trun_run os _ _ _ _ _ wf_empty H). Qed.
Lemma settle_in d n' ds : ∀ n, settle n ds = (Some d, n') → d ∈ ds ∧ ∃ k, fails k = true.
Proof.
  induction ds as [|d0 ds IH]; intros n H; [done|]. cbn [settle] in H. destruct (fails n) eqn:Ef.
  - injection H as <- _. split; [left|by exists n].
  - destruct (IH _ H). split; [by right|done].
Qed.
(** one more call: it has the specified effect, or an operation of a component type throws and
    the specified damage is left *)
Theorem C64_tuple_call w m o :
  reachable w m →
  match sstep o m with
  | Bad => True
  | Done r m' ds =>
      (∃ w', texec o w = Ok r w' ∧ reachable w' m' ∧ shows w' m') ∨
      (∃ w' d, d ∈ ds ∧ texec o w = Exn ElementThrow w' ∧ reachable w' d ∧ shows w' d ∧ ∃ k, fails k = true)
  end.
Proof.
  intros Hr. destruct (reachable_inv _ _ Hr) as (os & rs & n & Hs & -> & Hw).
  pose proof (texec_run o m n Hw) as Ho. pose proof (sstep_wf o m Hw) as Hwf.
  assert (srun (os ++ [o]) ∅ 0 = match srun [o] m n with Some (rs2, m2, n2) => Some (rs ++ rs2, m2, n2) | None => None end) as Happ by by apply srun_app.
  cbn [srun] in Happ.
  destruct (sstep o m) as [|r m' ds] eqn:E; [done|]. cbn [agrees] in Ho. unfold finish in Ho. destruct Hwf as [Hm' Hds].
  destruct (settle n ds) as [[d|] n'] eqn:Es.
  - right. exists (World d n'), d. destruct (settle_in _ _ _ _ Es) as [Hd Hk]. split; [done|]. split; [done|].
    split; [by eapply srun_reachable|]. split; [|done]. apply wf_shows. by eapply settle_wf.
  - left. exists (World m' n'). split; [done|]. split; [by eapply srun_reachable|by apply wf_shows].
Qed.
Definition others w m (x : nat) : Prop := ∀ y l i v, y ≠ x → m !! y = Some l → l !! i = Some v → component w y i v.
Lemma others_insert m n x l : wf m → length l = N → others (World (<[x:=l]> m) n) m x.
Proof.
  intros Hw Hl y l' i v Hne Hy Hi. eapply wf_component; [by apply wf_insert|by rewrite lookup_insert_ne by done|done].
Qed.
Lemma call_run {A} (f : M world A) m n a ds m' (Q : world → Prop) :
  f (World m n) = finish a n ds m' → Q (World m' (settle n ds).2) →
  run_to f (World m n) (λ _ w', Q w') (λ e w', e = ElementThrow ∧ ∃ d n', d ∈ ds ∧ w' = World d n').
Proof.
  intros Hf HQ. unfold run_to. rewrite Hf. unfold finish. destruct (settle n ds) as [[d|] n'] eqn:E; [|done].
  split; [done|]. exists d, n'. split; [|done]. by eapply settle_in.
Qed.
(** the call behind a history step *)
Lemma unit_call (f : M world unit) m n ds m' : (f ;;; ret OUnit) (World m n) = finish OUnit n ds m' → f (World m n) = finish tt n ds m'.
Proof.
  unfold bind, finish. destruct (f (World m n)) as [[] w'|e w'|g|]; destruct (settle n ds) as [[d|] n']; try done; [by intros [= ->]|by intros [= -> ->]].
Qed.

Lemma reverse_Forall2 {A B} (P : A → B → Prop) l k : Forall2 P l k → Forall2 P (reverse l) (reverse k).
Proof. induction 1 as [|a b l k H _ IH]; [constructor|]. rewrite !reverse_cons. apply Forall2_app; [done|]. by repeat constructor. Qed.
(** get<I> yields the I-th constructor argument; if a component cannot be initialised there is no
    tuple and nothing has changed *)
Theorem C64_new w m x args vs :
  reachable w m → m !! x = None → length args = N →
  Forall2 (λ a v, a = AMove (RVal v) ∨ ∃ r, a = ACopy r ∧ sref m r = Some v) args vs →
  run_to (tup_new x args) w
    (λ _ w', (∀ i v, vs !! i = Some v → component w' x i v) ∧ others w' m x)
    (λ e w', e = ElementThrow ∧ shows w' m).
Proof.
  intros Hr Hx Hlen Hargs. destruct (reachable_inv _ _ Hr) as (_ & _ & n & _ & -> & Hw).
  assert (∃ ds, sargs m (reverse args) = Some (reverse vs, m, ds) ∧ Forall (λ d, d = m) ds) as (ds & Hs & Hds).
  { apply reverse_Forall2 in Hargs. clear -Hargs. induction Hargs as [|a v args' vs' Ha _ IH]; [by exists []|]. destruct IH as (ds & Hs & Hds). cbn [sargs].
    destruct Ha as [->|(r & -> & Hr)]; cbn [sarg].
    - rewrite Hs. by exists ds.
    - rewrite Hr, Hs. exists (m :: ds). split; [done|]. by apply Forall_cons. }
  pose proof (texec_run (TNew x args) m n Hw) as Ho. cbn [sstep] in Ho. rewrite Hx, Hs, decide_True in Ho by done. cbn [agrees texec] in Ho. apply unit_call in Ho. rewrite reverse_involutive in Ho.
  assert (length vs = N) as Hvs by (rewrite <-Hlen; symmetry; by eapply Forall2_length).
  eapply run_to_mono; [eapply (call_run _ m n tt _ _ (λ w', (∀ i v, vs !! i = Some v → component w' x i v) ∧ others w' m x)); [exact Ho|]|done|].
  - split; [|by apply others_insert]. intros i v Hi. eapply wf_component; [by apply wf_insert|by rewrite lookup_insert|done].
  - intros e w' (-> & d & n' & Hd & ->). split; [done|]. rewrite Forall_forall in Hds. rewrite (Hds _ Hd). by apply wf_shows.
Qed.
(** every get<I> exists, and references to different components are different objects: writing
    through one changes that component and no other *)
Theorem C64_write w m x l i v :
  reachable w m → m !! x = Some l → i < N →
  ∃ s w', tup_get i x w = Ok s w ∧ wr s v w = Ok tt w' ∧ component w' x i v ∧
    (∀ j u, j ≠ i → l !! j = Some u → component w' x j u) ∧ others w' m x.
Proof.
  intros Hr Hx Hi. destruct (reachable_inv _ _ Hr) as (_ & _ & n & _ & -> & Hw). pose proof (Hw _ _ Hx) as Hl.
  exists (x, i), (World (<[x:=<[i:=v]> l]> m) n). split; [by eapply get_run|]. split; [apply wr_run; [done|lia]|].
  assert (length (<[i:=v]> l) = N) as Hl' by by rewrite insert_length. pose proof (wf_insert m x _ Hw Hl') as Hw'. split; [|split].
  - eapply wf_component; [done|by rewrite lookup_insert|]. apply list_lookup_insert. lia.
  - intros j u' Hj Hu'. eapply wf_component; [done|by rewrite lookup_insert|]. by rewrite list_lookup_insert_ne.
  - by apply others_insert.
Qed.
(** swap exchanges all components, nothing else, and does not throw; a tuple may be swapped with
    itself *)
Theorem C64_swap w m x y a b :
  reachable w m → m !! x = Some a → m !! y = Some b →
  run_to (tup_swap x y) w
    (λ _ w', (∀ i v, b !! i = Some v → component w' x i v) ∧ (∀ i v, a !! i = Some v → component w' y i v) ∧
      ∀ z l i v, z ≠ x → z ≠ y → m !! z = Some l → l !! i = Some v → component w' z i v) never.
Proof.
  intros Hr Hx Hy. destruct (reachable_inv _ _ Hr) as (_ & _ & n & _ & -> & Hw). pose proof (Hw _ _ Hx). pose proof (Hw _ _ Hy).
  pose proof (texec_run (TSwap x y) m n Hw) as Ho. cbn [sstep] in Ho. rewrite Hx, Hy in Ho. cbn [agrees texec] in Ho. apply unit_call in Ho. rewrite finish_nil in Ho.
  unfold run_to. rewrite Ho.
  assert (wf (<[x:=b]> (<[y:=a]> m))) as Hw' by (apply wf_insert; [by apply wf_insert|done]).
  split; [|split].
  - intros i v Hi. eapply wf_component; [done|by rewrite lookup_insert|done].
  - intros i v Hi. destruct (decide (x = y)) as [<-|Hne].
    + assert (a = b) as <- by congruence. eapply wf_component; [done|by rewrite lookup_insert|done].
    + eapply wf_component; [done|by rewrite lookup_insert_ne, lookup_insert by done|done].
  - intros z l i v Hzx Hzy Hz Hi. eapply wf_component; [done|by rewrite !lookup_insert_ne by done|done].
Qed.
(** a copy equals its source, which stays as it is *)
Theorem C64_copy w m x y l :
  reachable w m → m !! x = None → m !! y = Some l →
  run_to (tup_new_copy x y) w
    (λ _ w', (∀ i v, l !! i = Some v → component w' x i v) ∧ others w' m x) (λ e w', e = ElementThrow ∧ shows w' m).
Proof.
  intros Hr Hx Hy. destruct (reachable_inv _ _ Hr) as (_ & _ & n & _ & -> & Hw). pose proof (Hw _ _ Hy) as Hl.
  pose proof (texec_run (TNewCopy x y) m n Hw) as Ho. cbn [sstep] in Ho. rewrite Hx, Hy in Ho. cbn [agrees texec] in Ho. apply unit_call in Ho.
  eapply run_to_mono; [eapply (call_run _ m n tt _ _ (λ w', (∀ i v, l !! i = Some v → component w' x i v) ∧ others w' m x)); [exact Ho|]|done|].
  - split; [|by apply others_insert]. intros i v Hi. eapply wf_component; [by apply wf_insert|by rewrite lookup_insert|done].
  - intros e w' (-> & d & n' & Hd & ->). split; [done|]. apply elem_of_replicate_inv in Hd as ->. by apply wf_shows.
Qed.
(** copy assignment; if it throws, some component is half-done, those after it are assigned and
    those before it are not *)
Theorem C64_copy_assign w m x y a b :
  reachable w m → m !! x = Some a → m !! y = Some b →
  run_to (tup_copy_assign x y) w
    (λ _ w', (∀ i v, b !! i = Some v → component w' x i v) ∧ others w' m x)
    (λ e w', e = ElementThrow ∧ others w' m x ∧ ∃ k u v, a !! k = Some u ∧ b !! k = Some v ∧ component w' x k (torn u v) ∧
      (∀ i u', i < k → a !! i = Some u' → component w' x i u') ∧ (∀ i v', k < i → b !! i = Some v' → component w' x i v')).
Proof.
  intros Hr Hx Hy. destruct (reachable_inv _ _ Hr) as (_ & _ & n & _ & -> & Hw). pose proof (Hw _ _ Hx) as Ha. pose proof (Hw _ _ Hy) as Hb.
  pose proof (texec_run (TCopyAssign x y) m n Hw) as Ho. cbn [sstep] in Ho. rewrite Hx, Hy in Ho. cbn [agrees texec] in Ho. apply unit_call in Ho.
  eapply run_to_mono; [eapply (call_run _ m n tt _ _ (λ w', (∀ i v, b !! i = Some v → component w' x i v) ∧ others w' m x)); [exact Ho|]|done|].
  - split; [|by apply others_insert]. intros i v Hi. eapply wf_component; [by apply wf_insert|by rewrite lookup_insert|done].
  - intros e w' (-> & d & n' & Hd & ->). split; [done|]. rewrite elem_of_reverse in Hd. apply elem_of_list_lookup in Hd as [k Hd].
    rewrite list_lookup_imap in Hd.
    destruct (zip a b !! k) as [[u v]|] eqn:Hz; [|done]. injection Hd as <-. cbn [fst snd]. apply lookup_zip_with_Some in Hz as (u' & v' & [= -> ->] & Hu & Hv).
    pose proof (lookup_lt_Some _ _ _ Hu). set (l := take k a ++ torn u' v' :: drop (S k) b).
    assert (length (take k a) = k) as Htake by (rewrite take_length; lia).
    assert (length l = N) as Hl by (unfold l; rewrite app_length, Htake; cbn [length]; rewrite drop_length; lia).
    assert (∀ i c, l !! i = Some c → component (World (<[x:=l]> m) n') x i c) as Hc.
    { intros i c Hi. eapply wf_component; [by apply wf_insert|by rewrite lookup_insert|done]. }
    split; [by apply others_insert|]. exists k, u', v'. split; [done|]. split; [done|]. split; [|split].
    + apply Hc. unfold l. rewrite lookup_app_r by lia. by rewrite Htake, Nat.sub_diag.
    + intros i c Hi Hic. apply Hc. unfold l. rewrite lookup_app_l by lia. by rewrite lookup_take.
    + intros i c Hi Hic. apply Hc. unfold l. rewrite lookup_app_r by lia. rewrite Htake. destruct (i - k) as [|j] eqn:Ej; [lia|].
      change (drop (S k) b !! j = Some c). rewrite lookup_drop. by replace (S k + j) with i by lia.
Qed.

(** ** C64: order *)
Section compare.
Context (t_lt t_eq : K → V → V → bool).
(** [r] is the answer to the question [P], given without changing anything *)
Definition answer (r : res world bool) w (P : Prop) : Prop := ∃ b, r = Ok b w ∧ (b = true ↔ P).
(** for any operators of the component types, lawful or not *)
Theorem C64_comparisons w m x y a b :
  reachable w m → m !! x = Some a → m !! y = Some b →
  answer (tup_lt t_lt x y w) w (tup_less t_lt a b) ∧ answer (tup_gt t_lt x y w) w (tup_less t_lt b a) ∧
  answer (tup_le t_lt x y w) w (¬ tup_less t_lt b a) ∧ answer (tup_ge t_lt x y w) w (¬ tup_less t_lt a b) ∧
  answer (tup_eq t_eq x y w) w (tup_equal t_eq a b) ∧ answer (tup_ne t_eq x y w) w (¬ tup_equal t_eq a b).
Proof.
  intros Hr Hx Hy. destruct (reachable_inv _ _ Hr) as (_ & _ & n & _ & -> & Hw).
  destruct (tup_lt_run t_lt m n x y a b Hw Hx Hy) as (r1 & H1 & S1). destruct (tup_lt_run t_lt m n y x b a Hw Hy Hx) as (r2 & H2 & S2).
  destruct (tup_eq_run t_eq m n x y a b Hw Hx Hy) as (r3 & H3 & S3).
  assert (tup_gt t_lt x y (World m n) = Ok r2 (World m n)) as H4 by by apply noexcept_ok.
  repeat apply conj.
  - by exists r1.
  - by exists r2.
  - exists (negb r2). split; [|by rewrite <-S2; destruct r2]. apply noexcept_ok. unfold bind. by rewrite H4.
  - exists (negb r1). split; [|by rewrite <-S1; destruct r1]. apply noexcept_ok. unfold bind. by rewrite H1.
  - by exists r3.
  - exists (negb r3). split; [|by rewrite <-S3; destruct r3]. apply noexcept_ok. unfold bind. by rewrite H3.
Qed.
(** if every component type is totally ordered, the six operators belong to one order *)
Theorem C64_one_order w m x y a b :
  ordered t_lt t_eq → reachable w m → m !! x = Some a → m !! y = Some b →
  ∃ c, let r := answers_for c in
    tup_lt t_lt x y w = Ok (a_lt r) w ∧ tup_le t_lt x y w = Ok (a_le r) w ∧ tup_gt t_lt x y w = Ok (a_gt r) w ∧
    tup_ge t_lt x y w = Ok (a_ge r) w ∧ tup_eq t_eq x y w = Ok (a_eq r) w ∧ tup_ne t_eq x y w = Ok (a_ne r) w.
Proof.
  intros T Hr Hx Hy. destruct (C64_comparisons w m x y a b Hr Hx Hy)
    as ((r1 & -> & S1) & (r2 & -> & S2) & (r3 & -> & S3) & (r4 & -> & S4) & (r5 & -> & S5) & (r6 & -> & S6)).
  destruct (reachable_inv _ _ Hr) as (_ & _ & n & _ & -> & Hw). pose proof (Hw _ _ Hx) as Ha. pose proof (Hw _ _ Hy) as Hb.
  pose proof (lex_total _ _ (plt_total t_lt t_eq T) (plt_dec t_lt)) as L. pose proof (lex_dec _ (peq t_eq) (plt_dec t_lt)) as D.
  rewrite (tup_less_lex t_lt a b) in S1, S4 by lia. rewrite (tup_less_lex t_lt b a) in S2, S3 by lia. rewrite (tup_equal_lex t_eq a b) in S5, S6 by done.
  destruct (one_order _ _ _ _ _ _ _ _ _ _ L D S1 S2 S3 S4 S5 S6) as (c & Hc & _). exists c. by rewrite <-Hc.
Qed.
(** and that order is transitive *)
Theorem C64_le_transitive w m x y z a b c :
  ordered t_lt t_eq → reachable w m → m !! x = Some a → m !! y = Some b → m !! z = Some c →
  tup_le t_lt x y w = Ok true w → tup_le t_lt y z w = Ok true w → tup_le t_lt x z w = Ok true w.
Proof.
  intros T Hr Hx Hy Hz Hxy Hyz.
  destruct (C64_comparisons w m x y a b Hr Hx Hy) as (_ & _ & (r1 & E1 & S1) & _).
  destruct (C64_comparisons w m y z b c Hr Hy Hz) as (_ & _ & (r2 & E2 & S2) & _).
  destruct (C64_comparisons w m x z a c Hr Hx Hz) as (_ & _ & (r3 & E3 & S3) & _).
  destruct (reachable_inv _ _ Hr) as (_ & _ & n & _ & -> & Hw). pose proof (Hw _ _ Hx). pose proof (Hw _ _ Hy). pose proof (Hw _ _ Hz).
  pose proof (lex_total _ _ (plt_total t_lt t_eq T) (plt_dec t_lt)) as L. pose proof (lex_dec _ (peq t_eq) (plt_dec t_lt)) as D.
  rewrite E3. f_equal. apply S3. rewrite Hxy in E1. injection E1 as <-. rewrite Hyz in E2. injection E2 as <-.
  rewrite tup_less_lex in * by lia. by apply (order_le_trans _ _ _ _ _ L D (proj1 S1 eq_refl) (proj1 S2 eq_refl)).
Qed.
End compare.
End props.

(** ** Examples: tuple<A, B, A>, where A is ordered by < and B by >; the fourth copy throws *)
Definition cfg (f : nat → bool) : TupCfg := {|
  K := bool; Types := [false; true; false]; V := nat; moved v := 100 + v; selfmove v := 200 + v; torn u v := 50; fails := f |}.
Definition lt_of (t : bool) (a b : nat) : bool := if t then b <? a else a <? b.
Definition eq_of (t : bool) (a b : nat) : bool := a =? b.
Example C64_ordered_case : @ordered (cfg (λ _, false)) lt_of eq_of.
Proof.
  assert (∀ x y, eq_of false x y = true ↔ x = y) as He by (intros; apply Nat.eqb_eq).
  intros t _. destruct t; (split; unfold lt_of, eq_of; intros *; rewrite ?Nat.ltb_lt, ?Nat.eqb_eq; lia).
Qed.
Section examples.
Local Instance ex : TupCfg := cfg (λ k, k =? 3).
Lemma script_reachable (f : world → gmap nat (list V) → bool) (os : list top) :
  match srun os ∅ 0, trun os init_world with Some (_, m, _), Finished _ w => f w m = true | _, _ => False end →
  ∃ w m, reachable w m ∧ f w m = true.
Proof.
  destruct (srun os ∅ 0) as [[[rs m] n]|] eqn:Hs; [|done]. destruct (trun os init_world) as [rs' w| |] eqn:Ha; [|done..].
  intros H. exists w, m. split; [|done]. by exists os, rs, rs', n.
Qed.
Definition is (l : list nat) (o : option (list V)) : bool := bool_decide (o = Some l).
Definition answers_are (x y : nat) (w : world) (rs : list bool) : bool :=
  bool_decide ((λ f : M world bool, match f w with Ok b _ => b | _ => false end) <$>
    [tup_lt lt_of x y; tup_le lt_of x y; tup_gt lt_of x y; tup_ge lt_of x y; tup_eq eq_of x y; tup_ne eq_of x y] = rs).
(** arguments are taken from the last to the first: tuple 1 starts as {106, 106, 6}; the copy
    assignment throws at its middle component *)
Definition script : list top :=
  [TNew 0 [AMove (RVal 5); AMove (RVal 6); AMove (RVal 7)];
   TNew 1 [ACopy (RComp (0, 1)); ACopy (RComp (0, 1)); AMove (RComp (0, 1))];
   TNewMove 2 0; TSwap 0 0; TSwap 1 2; TWrite (1, 2) 8; TGet 2 1; TCopyAssign 2 1; TNewCopy 3 1; TMoveAssign 0 3].
Example C64_case : ∃ w m, reachable w m ∧
  is [5; 106; 8] (m !! 0) && is [5; 106; 8] (m !! 1) && is [106; 50; 8] (m !! 2) && is [105; 206; 108] (m !! 3) &&
  answers_are 1 2 w [true; true; false; false; false; true] && answers_are 0 1 w [false; true; false; true; true; false] &&
  answers_are 2 0 w [false; false; true; true; false; true] = true.
Proof. apply (script_reachable (λ w m, _) script). by vm_compute. Qed.
End examples.

Print Assumptions C64_tuple_is_sequence.
Print Assumptions C64_tuple_call.
Print Assumptions C64_new.
Print Assumptions C64_write.
Print Assumptions C64_swap.
Print Assumptions C64_copy.
Print Assumptions C64_copy_assign.
Print Assumptions C64_comparisons.
Print Assumptions C64_one_order.
Print Assumptions C64_le_transitive.
