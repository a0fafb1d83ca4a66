(** Histories of calls on strings, and further facts used by StringProps.v. *)
From stdpp Require Import prelude gmap.
From Coq Require Import ZArith Lia.
From Verif Require Import Cpp StringModel StringSpec StringMem StringRep StringOps StringOps2 StringOps3 StringHistory.
Local Open Scope nat_scope.

Section proofs.
Context `{C : StrCfg} (Hcfg : cfg_ok).
Notation state := (gmap nat (list char)).
Notation raws := (gmap nat raw).

(** ** The representation determines the world, and conversely *)
Lemma Rep_det w w' ρ : Rep w ρ → Rep w' ρ → objs w' = objs w ∧ mem w' = mem w.
Proof.
  intros H H'. split; [by rewrite (rep_objs _ _ H), (rep_objs _ _ H')|].
  apply map_eq. intros p. apply option_eq. intros c. by rewrite (rep_mem _ _ H), (rep_mem _ _ H').
Qed.
Lemma wf_get w m x l : wf w m → m !! x = Some l → ∃ ρ s, Rep w ρ ∧ rel ρ m ∧ ρ !! x = Some s ∧ holds s l.
Proof. intros (ρ & H & Hr) Hx. destruct (rel_get _ _ _ _ Hr Hx) as (s & ? & ?). by exists ρ, s. Qed.
Lemma wf_obj w m x s : wf w m → objs w !! x = Some s → ∃ l, m !! x = Some l.
Proof.
  intros (ρ & H & Hr) Hx. destruct (m !! x) as [l|] eqn:E; [eauto|].
  by rewrite (rep_obj_none _ _ _ H (rel_none _ _ _ Hr E)) in Hx.
Qed.

(** ** A single call in a valid state *)
Lemma call_ok o w m : wf w m → sstep (inline w) o m ≠ Bad →
  match sexec o w with
  | Ok r w' => ∃ m', sstep (inline w) o m = Done r m' ∧ wf w' m' ∧ later w w' ∧ (acquires o = false → same w w')
  | Exn e w' => wf w' m ∧ objs w' = objs w ∧ mem w' = mem w ∧ later w w' ∧
                (sstep (inline w) o m = Throws e ∨ explained o m w w' e)
  | _ => False
  end.
Proof.
  intros (ρ & H & Hr) Hb. pose proof (exec_run Hcfg o w m ρ H Hr Hb) as Hx. unfold run_to in Hx.
  destruct (sexec o w) as [r w'|e w'|f|]; try done.
  - destruct Hx as (m' & ρ' & Hs & H' & Hr' & Hlt & _ & _ & Hsm). exists m'. sp; try done. by exists ρ'.
  - destruct Hx as (H' & Hlt & Hwhy & _). destruct (Rep_det _ _ _ H H') as [Ho Hm].
    sp; try done. by exists ρ.
Qed.
(** within capacity *)
Lemma call_keeps o w m x n c p : wf w m → sstep (inline w) o m ≠ Bad → needs o m = Some (x, n) →
  str_capacity x w = Ok c w → str_data x w = Ok p w → n ≤ c →
  ∃ r w', sexec o w = Ok r w' ∧ same w w' ∧ str_capacity x w' = Ok c w' ∧ str_data x w' = Ok p w'.
Proof.
  intros (ρ & H & Hr) Hb Hn Hc Hp Hle. pose proof (exec_run Hcfg o w m ρ H Hr Hb) as Hx. unfold run_to in Hx.
  assert (∃ s, ρ !! x = Some s) as [s Hs].
  { destruct (ρ !! x) as [s|] eqn:E; [eauto|]. unfold str_capacity, bind, get_str in Hc.
    by rewrite (rep_obj_none _ _ _ H E) in Hc. }
  rewrite (str_capacity_eq _ _ _ _ H Hs) in Hc. injection Hc as <-.
  rewrite (str_data_eq _ _ _ _ H Hs) in Hp. injection Hp as <-.
  destruct (sexec o w) as [r w'|e w'|f|]; try done.
  - destruct Hx as (m' & ρ' & _ & H' & _ & _ & _ & Hk & _).
    destruct (Hk _ _ _ Hn Hs Hle) as ((q & Hq & Hh & Hcp) & Hsm).
    exists r, w'. sp; [done|done| |].
    + rewrite (str_capacity_eq _ _ _ _ H' Hq). by rewrite Hcp.
    + rewrite (str_data_eq _ _ _ _ H' Hq). unfold hp. by rewrite Hh.
  - destruct Hx as (_ & _ & _ & Hk). pose proof (Hk _ _ _ Hn Hs). lia.
Qed.

Lemma wf_init : wf init_world ∅.
Proof.
  exists ∅. split.
  - split; cbn [objs mem init_world]; [by rewrite fmap_empty|..]; intros; try by simplify_map_eq.
    split; [by intros; simplify_map_eq|]. intros (? & ? & ? & _). by simplify_map_eq.
  - intros x. by rewrite !lookup_empty.
Qed.
Lemma c_str_eq w ρ x s l i v : Rep w ρ → ρ !! x = Some s → holds s l → (l ++ [NUL]) !! i = Some v →
  str_c_str x i w = Ok v w.
Proof. apply index_eq. Qed.
Lemma wf_shows w m : wf w m → shows w m.
Proof.
  intros (ρ & H & Hr) x. destruct (m !! x) as [l|] eqn:Hx.
  - destruct (rel_get _ _ _ _ Hr Hx) as (s & Hs & Hl). sp.
    + rewrite (str_size_eq _ _ _ _ H Hs). by rewrite (proj1 Hl).
    + intros i c Hi. eapply c_str_eq; [done..|]. by apply lookup_app_l_Some.
    + eapply c_str_eq; [done..|]. rewrite lookup_app_r by lia. by rewrite Nat.sub_diag.
  - eapply rep_obj_none; [done|]. by eapply rel_none.
Qed.
Lemma reachable_wf w m : reachable w m → wf w m.
Proof.
  induction 1 as [|w m o r r' w' m' _ IH Hs Hx|w m o e w' _ IH Hs Hx]; [apply wf_init|..].
  - pose proof (call_ok o w m IH) as Hc. rewrite Hs, Hx in Hc. destruct Hc as (m1 & E & Hw & _); [done|]. by simplify_eq.
  - pose proof (call_ok o w m IH Hs) as Hc. rewrite Hx in Hc. apply Hc.
Qed.

Lemma explained_exn o m w w' e : explained o m w w' e → acquires o = true ∧ e ∈ [BadAlloc; LengthError].
Proof. intros [? He]. split; [done|]. destruct e; try done; set_solver. Qed.
Lemma srun_step o os w : srun (o :: os) w =
  match sexec o w with
  | Ok r w' => match srun os w' with Finished rs w'' => Finished (r :: rs) w'' | h => h end
  | Exn e w' => match srun os w' with Finished rs w'' => Finished (OThrew e :: rs) w'' | h => h end
  | Stuck f => Faulted f
  | Terminated => Aborted
  end.
Proof. done. Qed.

Lemma srun_ok os : ∀ w m, wf w m → respects os w m →
  ∃ rs w' m', srun os w = Finished rs w' ∧ replay false os rs m m' ∧ wf w' m' ∧ later w w'.
Proof.
  induction os as [|o os IH]; intros w m Hw Hr; cbn [respects] in *.
  { exists [], w, m. sp; [done|constructor|done|apply later_refl]. }
  assert (Hb : sstep (inline w) o m ≠ Bad) by (intros E; by rewrite E in Hr).
  pose proof (call_ok o w m Hw Hb) as Hs. rewrite srun_step.
  destruct (sexec o w) as [r w1|e w1|f|] eqn:Hx; try done.
  - destruct Hs as (m1 & Hd & Hw1 & Hl & _). rewrite Hd in Hr.
    destruct (IH w1 m1 Hw1 Hr) as (rs & w' & m' & -> & Hp & Hw' & Hl').
    exists (r :: rs), w', m'. sp; [done|by eapply replay_done|done|by eapply later_trans].
  - destruct Hs as (Hw1 & _ & _ & Hl & Hwhy).
    assert (Hr' : respects os w1 m) by (by destruct (sstep (inline w) o m)).
    destruct (IH w1 m Hw1 Hr') as (rs & w' & m' & -> & Hp & Hw' & Hl').
    exists (OThrew e :: rs), w', m'. sp; [done| |done|by eapply later_trans].
    destruct Hwhy as [Ht|He]; [by eapply replay_throws|].
    destruct (explained_exn _ _ _ _ _ He). by apply replay_failed.
Qed.
Lemma srun_exact os : ∀ w m, (∀ k, alloc_fails k = false) → wf w m → respects os w m → fits os w m →
  ∃ rs w' m', srun os w = Finished rs w' ∧ replay true os rs m m' ∧ wf w' m'.
Proof.
  induction os as [|o os IH]; intros w m Ha Hw Hr Hf; cbn [respects fits] in *.
  { exists [], w, m. sp; [done|constructor|done]. }
  destruct Hf as [Hd0 Hf].
  assert (Hb : sstep (inline w) o m ≠ Bad) by (intros E; by rewrite E in Hr).
  pose proof (call_ok o w m Hw Hb) as Hs. rewrite srun_step.
  destruct (sexec o w) as [r w1|e w1|f|] eqn:Hx; try done.
  - destruct Hs as (m1 & Hd & Hw1 & Hl & _). rewrite Hd in Hr, Hf.
    destruct (IH w1 m1 Ha Hw1 Hr Hf) as (rs & w' & m' & -> & Hp & Hw').
    exists (r :: rs), w', m'. sp; [done|by eapply replay_done|done].
  - destruct Hs as (Hw1 & _ & _ & Hl & [Ht|He]).
    + rewrite Ht in Hr, Hf. destruct (IH w1 m Ha Hw1 Hr Hf) as (rs & w' & m' & -> & Hp & Hw').
      exists (OThrew e :: rs), w', m'. sp; [done|by eapply replay_throws|done].
    + exfalso. destruct He as [_ He]. destruct e; try done.
      * unfold max_size in He. destruct Hcfg as (? & _). unfold footprint in *. lia.
      * destruct He as [(k & _ & Hk)|?]; [by rewrite Ha in Hk|lia].
Qed.
Lemma reachable_run os : ∀ w m, reachable w m → respects os w m →
  ∃ rs w' m', srun os w = Finished rs w' ∧ replay false os rs m m' ∧ reachable w' m'.
Proof.
  induction os as [|o os IH]; intros w m Hre Hr; cbn [respects] in *.
  { exists [], w, m. sp; [done|constructor|done]. }
  assert (Hb : sstep (inline w) o m ≠ Bad) by (intros E; by rewrite E in Hr).
  pose proof (call_ok o w m (reachable_wf _ _ Hre) Hb) as Hs. rewrite srun_step.
  destruct (sexec o w) as [r w1|e w1|f|] eqn:Hx; try done.
  - destruct Hs as (m1 & Hd & _). rewrite Hd in Hr.
    destruct (IH w1 m1) as (rs & w' & m' & -> & Hp & Hw'); [by eapply reach_done|done|].
    exists (r :: rs), w', m'. sp; [done|by eapply replay_done|done].
  - destruct Hs as (_ & _ & _ & _ & Hwhy).
    assert (Hr' : respects os w1 m) by (by destruct (sstep (inline w) o m)).
    destruct (IH w1 m) as (rs & w' & m' & -> & Hp & Hw'); [by eapply reach_threw|done|].
    exists (OThrew e :: rs), w', m'. sp; [done| |done].
    destruct Hwhy as [Ht|He]; [by eapply replay_throws|].
    destruct (explained_exn _ _ _ _ _ He). by apply replay_failed.
Qed.

(** ** Strings not written to *)
Lemma sstep_frame keeps o m r m' z : sstep keeps o m = Done r m' → z ∉ writes o → m' !! z = m !! z.
Proof.
  intros Hs Hz.
  destruct o; cbn [sstep writes] in *; unfold sget, snew, supd, sinput, sreplace in *;
    repeat case_match; simplify_eq; try done;
    rewrite ?lookup_insert_ne, ?lookup_delete_ne by set_solver; try done.
  all: destruct (decide (z = x)) as [->|]; [by simplify_map_eq|by rewrite lookup_insert_ne].
Qed.
Lemma replay_frame mem os : ∀ rs m m' z, replay mem os rs m m' → (∀ o, o ∈ os → z ∉ writes o) → m' !! z = m !! z.
Proof.
  induction os as [|o os IH]; intros rs m m' z Hr Hz; inversion Hr; simplify_eq; [done|..].
  - erewrite IH; [eapply sstep_frame; [done|]|done|]; [apply Hz; by left|intros o' Ho; apply Hz; by right].
  - eapply IH; [done|]. intros o' Ho; apply Hz; by right.
  - eapply IH; [done|]. intros o' Ho; apply Hz; by right.
Qed.

(** ** Exhibiting reachable worlds: run the history and look *)
Fixpoint follow (os : list sop) (w : world) (m : state) : option (world * state) :=
  match os with
  | [] => Some (w, m)
  | o :: os' =>
      match sstep (inline w) o m, sexec o w with
      | Done _ m', Ok _ w' => follow os' w' m'
      | Done _ _, Exn _ w' | Throws _, Exn _ w' => follow os' w' m
      | _, _ => None
      end
  end.
Lemma follow_reachable_from os : ∀ w m w' m', reachable w m → follow os w m = Some (w', m') → reachable w' m'.
Proof.
  induction os as [|o os IH]; intros w m w' m' Hre Hf; cbn [follow] in *; [by simplify_eq|].
  destruct (sstep (inline w) o m) as [|r m1|e] eqn:Hs; [done| |]; destruct (sexec o w) as [r' w1|e' w1|f|] eqn:Hx; try done.
  - eapply IH; [|exact Hf]. by eapply reach_done.
  - eapply IH; [|exact Hf]. eapply reach_threw; [done| |done]. by rewrite Hs.
  - eapply IH; [|exact Hf]. eapply reach_threw; [done| |done]. by rewrite Hs.
Qed.
Lemma follow_reachable os w m : follow os init_world ∅ = Some (w, m) → reachable w m.
Proof. apply follow_reachable_from, reach_init. Qed.

(** ** Sequences of push_back *)
Lemma pushes_stay x (cs : list char) : ∀ w m l c p, wf w m → m !! x = Some l →
  str_capacity x w = Ok c w → str_data x w = Ok p w → length l + length cs ≤ c →
  ∃ w', srun (SPushBack x <$> cs) w = Finished (replicate (length cs) OUnit) w' ∧ same w w' ∧
    wf w' (<[x:=l ++ cs]> m) ∧ str_capacity x w' = Ok c w' ∧ str_data x w' = Ok p w'.
Proof.
  induction cs as [|ch cs IH]; intros w m l c p Hw Hl Hc Hp Hle.
  { exists w. sp; [done|done| |done|done]. by rewrite app_nil_r, insert_id. }
  cbn [length] in Hle. rewrite fmap_cons.
  assert (Hd : sstep (inline w) (SPushBack x ch) m = Done OUnit (<[x:=l ++ [ch]]> m)).
  { cbn [sstep]. unfold supd. by rewrite Hl. }
  destruct (call_keeps (SPushBack x ch) w m x (S (length l)) c p) as (r & w1 & Hx & Hs & Hc1 & Hp1); try done; [by rewrite Hd| |lia|].
  { cbn [needs]. by rewrite (slen_eq _ _ _ Hl). }
  pose proof (call_ok (SPushBack x ch) w m Hw) as Hk. rewrite Hx, Hd in Hk.
  destruct Hk as (m1 & E & Hw1 & _); [done|]. simplify_eq.
  destruct (IH w1 _ (l ++ [ch]) c p Hw1 (lookup_insert _ _ _) Hc1 Hp1) as (w' & E' & Hs' & Hw' & ?).
  { rewrite app_length. cbn [length]. lia. }
  exists w'. cbn [length replicate]. rewrite srun_step, Hx, E'. sp; [done|by eapply same_trans| |naive_solver..].
  rewrite insert_insert, <-app_assoc in Hw'. done.
Qed.
End proofs.
