(** C107: pointers into a string stay valid.

    data(), begin() and c_str() are all the address that [str_data] computes: the object itself or a block,
    and an index in it. [rd] reads what is there, and is stuck if there is no character. *)
From stdpp Require Import prelude gmap.
From Coq Require Import ZArith Lia.
From Coq Require Import Init.Byte.
From Verif Require Import Cpp StringModel StringSpec StringMem StringRep StringOps StringOps2 StringOps3 StringHistory
  StringExtra StringLimits StringProps StringCostProps StringStableSpec StringStable.
Local Open Scope nat_scope.

Section props.
Context `{C : StrCfg} (Hcfg : cfg_ok).
Notation state := (gmap nat (list char)).

Lemma data_rep w ρ x p : Rep w ρ → str_data x w = Ok p w → ∃ s, ρ !! x = Some s ∧ p = (hp x s, 0).
Proof.
  intros H Hp. destruct (ρ !! x) as [s|] eqn:E.
  - rewrite (str_data_eq _ _ _ _ H E) in Hp. injection Hp as <-. eauto.
  - unfold str_data, bind, get_str in Hp. by rewrite (rep_obj_none _ _ _ H E) in Hp.
Qed.
Lemma data_reads w m x p l i a : wf w m → m !! x = Some l → str_data x w = Ok p w → (l ++ [NUL]) !! i = Some a →
  rd (padd p i) w = Ok a w.
Proof.
  intros Hw Hl Hp Hi. destruct (wf_get _ _ _ _ Hw Hl) as (ρ & s & H & _ & Hs & Hh).
  pose proof (index_eq _ _ _ _ _ _ _ H Hs Hh Hi) as E. unfold str_index in E. by erewrite bind_ok in E by exact Hp.
Qed.

(** what data() of [x] was is data() of [y] after the call: the text of [y] and the null character behind it can
    be read through it *)
Theorem C107_call_partial o w m m' x y p c r w' : reachable w m → sstep (inline w) o m = Done r m' →
  str_data x w = Ok p w → str_capacity x w = Ok c w →
  stands (inline w) o m m' c x = Some y → ¬ crowded o m c x → sexec o w = Ok r w' →
  ∃ l, m' !! y = Some l ∧ str_data y w' = Ok p w' ∧
    ∀ i a, (l ++ [NUL]) !! i = Some a → rd (padd p i) w' = Ok a w'.
Proof.
  intros Hre Hd Hp Hc Hy Hn He. pose proof (reachable_wf Hcfg _ _ Hre) as Hw.
  pose proof (call_ok Hcfg o w m Hw ltac:(by rewrite Hd)) as Hok. rewrite He in Hok.
  destruct Hok as (m1 & Hd1 & Hw' & _). assert (m1 = m') as -> by congruence.
  destruct Hw as (ρ & H & Hrel). destruct (data_rep _ _ _ _ H Hp) as (s & Hs & ->).
  rewrite (str_capacity_eq _ _ _ _ H Hs) in Hc. injection Hc as <-.
  pose proof (stands_data Hcfg _ _ _ _ _ _ _ _ _ _ H Hrel Hd Hs Hy Hn He) as Hp'.
  destruct Hw' as (ρ' & H' & Hrel'). destruct (data_rep _ _ _ _ H' Hp') as (s' & Hs' & _).
  destruct (m' !! y) as [l|] eqn:Hl; [|by rewrite (rel_none _ _ _ Hrel' Hl) in Hs'].
  exists l. split_and!; [done|done|]. intros i a Hi. eapply data_reads; [by exists ρ'|exact Hl|exact Hp'|exact Hi].
Qed.
(** after an exception every string is where it was, with the text it had *)
Theorem C107_exception_partial o w m x l p e w' : reachable w m → sstep (inline w) o m ≠ Bad →
  m !! x = Some l → str_data x w = Ok p w → sexec o w = Exn e w' →
  str_data x w' = Ok p w' ∧ ∀ i a, (l ++ [NUL]) !! i = Some a → rd (padd p i) w' = Ok a w'.
Proof.
  intros Hre Hb Hl Hp He. pose proof (reachable_wf Hcfg _ _ Hre) as Hw.
  pose proof (exec_run Hcfg o w m) as Hx. destruct Hw as (ρ & H & Hrel). specialize (Hx ρ H Hrel Hb).
  unfold run_to in Hx. rewrite He in Hx. destruct Hx as (H' & _).
  destruct (data_rep _ _ _ _ H Hp) as (s & Hs & ->). pose proof (str_data_eq _ _ _ _ H' Hs) as Hp'.
  split; [done|]. intros i a Hi. eapply data_reads; [by exists ρ|exact Hl|exact Hp'|exact Hi].
Qed.
(** but an assignment moves the characters if there is no room for the new ones beside the old ones, even if the
    new ones alone would fit *)
Theorem C107_assign_refuted o w m x l vs p c i r w' : reachable w m → m !! x = Some l → inline w x = false →
  str_data x w = Ok p w → str_capacity x w = Ok c w →
  ((∃ k, o = SAssignRange x k ∧ srange m k = Some vs) ∨ (∃ y k, o = SCopyAssign x y ∧ x ≠ y ∧ m !! y = Some k ∧ vs = Some <$> k)) →
  c < length l + length vs → sexec o w = Ok r w' → rd (padd p i) w' = Stuck UseAfterFree.
Proof.
  intros Hre Hl Hin Hp Hc Ho Hlt He. pose proof (reachable_wf Hcfg _ _ Hre) as (ρ & H & Hrel).
  destruct (data_rep _ _ _ _ H Hp) as (s & Hs & ->). rewrite (str_capacity_eq _ _ _ _ H Hs) in Hc. injection Hc as <-.
  destruct (rel_get _ _ _ _ Hrel Hl) as (s' & Hs' & Hh). assert (s' = s) as -> by congruence.
  rewrite (inline_eq _ _ _ _ H Hs) in Hin. destruct (r_home s) as [b|] eqn:Hb; [|done].
  unfold padd, hp. rewrite Hb. cbn [fst snd]. destruct Ho as [(k & -> & Hv)|(y & k & -> & Hxy & Hk & ->)].
  - cbn [sexec] in He. unfold obs_unit in He. apply bind_Ok_inv in He as ([] & w1 & E1 & E2). injection E2 as _ <-.
    by eapply (assign_range_moves Hcfg).
  - cbn [sexec] in He. unfold obs_unit in He. apply bind_Ok_inv in He as ([] & w1 & E1 & E2). injection E2 as _ <-.
    unfold str_copy_assign, as_view in E1. rewrite decide_False in E1 by done.
    destruct (rel_get _ _ _ _ Hrel Hk) as (q & Hq & Hlq).
    erewrite bind_ok in E1 by (by erewrite bind_ok by (by eapply str_size_eq)). rewrite (proj1 Hlq) in E1.
    eapply (assign_range_moves Hcfg w ρ m x s l); [exact H|exact Hrel|exact Hs|exact Hh|exact Hb| |exact Hlt|exact E1].
    cbn [srange]. rewrite Hk, decide_True by lia. by rewrite drop_0, firstn_all.
Qed.
(** and one from input iterators always does *)
Theorem C107_input_refuted w m x vs p i r w' : reachable w m → inline w x = false → str_data x w = Ok p w →
  sexec (SAssignInput x vs) w = Ok r w' → rd (padd p i) w' = Stuck UseAfterFree.
Proof.
  intros Hre Hin Hp He. pose proof (reachable_wf Hcfg _ _ Hre) as (ρ & H & Hrel).
  destruct (data_rep _ _ _ _ H Hp) as (s & Hs & ->). rewrite (inline_eq _ _ _ _ H Hs) in Hin.
  destruct (r_home s) as [b|] eqn:Hb; [|done]. unfold padd, hp. rewrite Hb. cbn [fst snd].
  cbn [sexec] in He. unfold obs_unit in He. apply bind_Ok_inv in He as ([] & w1 & E1 & E2). injection E2 as _ <-.
  by eapply (assign_input_moves Hcfg).
Qed.
End props.

(** string 0 is "abc" in the object, string 1 "abcdef" in a block for 12; what data() + i of [x] reads after a call *)
Definition later_read (x i : nat) (os : list sop) : option (res (@world) char) :=
  p ← check good (λ w _, match @str_data x w with Ok p _ => Some p | _ => None end) two;
  p ← p; check good (λ w _, rd (padd p i) w) (two ++ os).
Definition value {S} (r : option (res S char)) : option char := match r with Some (Ok a _) => Some a | _ => None end.
Definition dangles {S} (r : option (res S char)) : bool := match r with Some (Stuck UseAfterFree) => true | _ => false end.
Example C107_call_case :
  value (later_read 1 2 []) = Some x63 ∧
  value (later_read 1 6 [SPushBack 1 x7a; SAppendInput 1 [Some x79]]) = Some x7a ∧
  value (later_read 1 2 [SInsertRange 1 1 (RSub 1 0 6)]) = Some x62 ∧
  value (later_read 1 5 [SReplaceInput 1 0 6 (replicate 12 (Some x79))]) = Some x79 ∧
  value (later_read 1 2 [SNewMove 2 1; SSwap 0 2; SPopBack 0; SShrink 0]) = Some x63 ∧
  value (later_read 0 2 [SNewMove 2 0]) = Some x63 ∧
  value (later_read 0 1 [SMoveAssign 1 0; SErase1 0 0]) = Some x63 ∧
  value (later_read 1 2 [SClear 1; SResizeFill 1 12 x71]) = Some x71 ∧
  dangles (later_read 1 2 [SResizeFill 1 13 x71]) = true ∧
  dangles (later_read 1 2 [SErase 1 2 6; SShrink 1]) = true.
Proof. vm_compute. done. Qed.
Example C107_stands_case :
  let m : gmap nat (list char) := <[0:=abc]> (<[1:=abcdef]> ∅) in
  let st o m' c x := @stands good (λ y, y =? 0) o m m' c x in
  st (SPushBack 1 x61) (<[1:=abcdef ++ [x61]]> m) 12 1 = Some 1 ∧ st (SPushBack 0 x61) m 4 1 = Some 1 ∧
  st (SSwap 0 1) m 12 1 = Some 0 ∧ st (SSwap 0 1) m 4 0 = None ∧ st (SSwap 1 0) m 12 1 = Some 0 ∧
  st (SNewMove 2 1) m 12 1 = Some 2 ∧ st (SNewMove 2 0) m 4 0 = Some 0 ∧ st (SMoveAssign 0 1) m 4 0 = None ∧
  st (SShrink 1) m 12 1 = Some 1 ∧ st (SReserve 1 13) m 12 1 = None ∧ st (SReserve 1 12) m 12 1 = Some 1.
Proof. vm_compute. done. Qed.
(** the second allocation fails, that of an insertion into a full string *)
Example C107_exception_case :
  let C := cfg (λ k, k =? 1) in
  @check C _ (λ w _, match @str_data 1 w, @sexec C (SInsertFill 1 2 9 x7a) w with
    | Ok p _, Exn BadAlloc w' => match rd (padd p 2) w' with Ok a _ => Some a | _ => None end
    | _, _ => None
    end) two = Some (Some x63).
Proof. vm_compute. done. Qed.
(** 8 characters fit into the block for 12, but not beside the 6 that are there *)
Example C107_assign_case :
  dangles (later_read 1 2 [SAssignRange 1 (ext (replicate 8 x62))]) = true ∧
  value (later_read 1 2 [SAssignFill 1 8 x62]) = Some x62 ∧
  value (later_read 1 2 [SAssignRange 1 (ext (replicate 6 x62))]) = Some x62 ∧
  dangles (later_read 1 2 [SNewFill 2 8 x62; SCopyAssign 1 2]) = true ∧
  dangles (later_read 1 2 [SReplaceRange 1 1 5 (ext (replicate 7 x62))]) = true ∧
  value (later_read 1 2 [SReplaceIlist 1 1 5 (replicate 7 x62)]) = Some x62.
Proof. vm_compute. done. Qed.
Example C107_input_case : dangles (later_read 1 2 [SAssignInput 1 [Some x62]]) = true ∧
  dangles (later_read 1 2 [SAssignInput 1 (replicate 6 (Some x62))]) = true.
Proof. vm_compute. done. Qed.

Print Assumptions C107_call_partial.
Print Assumptions C107_exception_partial.
Print Assumptions C107_assign_refuted.
Print Assumptions C107_input_refuted.
