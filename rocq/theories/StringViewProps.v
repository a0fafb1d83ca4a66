(** C113: views of a string follow it.

    Programs call strings, make string_refs of them or of their c_str(), cut those, and read the characters through
    them, in any order. *)
From stdpp Require Import prelude gmap.
From Coq Require Import ZArith Lia.
From Coq Require Import Init.Byte.
From Verif Require Import Cpp StringModel StringSpec StringMem StringRep StringOps StringOps2 StringOps3 StringHistory
  StringExtra StringLimits StringProps StringCostProps StringStableSpec StringStable StringStableProps
  StringViewModel StringViewSpec StringView.
Local Open Scope nat_scope.

Section props.
Context `{C : StrCfg} (Hcfg : cfg_ok).
Notation state := (gmap nat (list char)).

(** no access through a view goes wrong as long as the view is a section of a text, and what is read is that section *)
Theorem C113_history_partial ps : trespects ps t_init ∅ ∅ →
  ∃ rs s m, trun ps t_init = TFinished rs s ∧ treplay ps rs ∅ ∅ m ∧ shows (strings s) m.
Proof. exact (trun_ok Hcfg ps _ _ _ tinv_init). Qed.

(** but a view does not survive an assignment for which there is no room beside the old text, nor one of an input
    range, even if the new text alone would fit *)
Theorem C113_assign_refuted o w vs m x l k i r w' : reachable w m → m !! x = Some l → i < length l → inline w x = false →
  ((∃ a t, o = SAssignRange x a ∧ srange m a = Some t ∧ capacity w x < length l + length t) ∨
   (∃ y t, o = SCopyAssign x y ∧ x ≠ y ∧ m !! y = Some t ∧ capacity w x < length l + length t) ∨
   ∃ t, o = SAssignInput x t) → sexec o w = Ok r w' →
  trun [TView k x; TIndex k i; TCall o; TIndex k i] (TWorld w vs) = TFaulted UseAfterFree.
Proof.
  intros Hre Hl Hi Hin Ho He. pose proof (reachable_wf Hcfg _ _ Hre) as Hw.
  destruct (wf_get _ _ _ _ Hw Hl) as (ρ & u & H & Hrel & Hu & Hh). destruct (lookup_lt_is_Some_2 _ _ Hi) as [a Ha].
  pose proof (str_data_eq _ _ _ _ H Hu) as Hd. pose proof (str_size_eq _ _ _ _ H Hu) as Hn. rewrite (proj1 Hh) in Hn.
  pose proof (str_capacity_eq _ _ _ _ H Hu) as Hc. set (p := (hp x u, 0) : bptr) in *.
  assert (Hst : rd (padd p i) w' = Stuck UseAfterFree).
  { unfold capacity in Ho. rewrite Hc in Ho. destruct Ho as [(b & t & -> & Ht & Hlt)|[(y & t & -> & Hxy & Ht & Hlt)|(t & ->)]].
    - exact (C107_assign_refuted Hcfg _ _ _ _ _ t _ _ i _ _ Hre Hl Hin Hd Hc (or_introl (ex_intro _ b (conj eq_refl Ht))) Hlt He).
    - refine (C107_assign_refuted Hcfg _ _ _ _ _ (Some <$> t) _ _ i _ _ Hre Hl Hin Hd Hc _ _ He); [right; eauto 10|].
      by rewrite fmap_length.
    - exact (C107_input_refuted Hcfg _ _ _ _ _ i _ _ Hre Hin Hd He). }
  assert (Hz : (length l =? 0) = false) by (apply Nat.eqb_neq; lia).
  set (v := (Some p, Some (padd p (length l))) : view).
  assert (Hpv : texec (TView k x) (TWorld w vs) = Ok TUnit (TWorld w (<[k:=v]> vs))).
  { cbn [texec]. unfold view_of, bind. rewrite (on_strings_same _ (TWorld w vs) _ Hn), Hz, (on_strings_same _ (TWorld w vs) _ Hd). done. }
  assert (Hx : ∀ w1, view_index k i (TWorld w1 (<[k:=v]> vs)) = on_strings (rd (padd p i)) (TWorld w1 (<[k:=v]> vs))).
  { intros w1. unfold view_index, bind. rewrite (get_view_eq _ _ v); [done|]. cbn [views]. by rewrite lookup_insert. }
  cbn [trun]. rewrite Hpv. cbn [texec]. unfold bind. rewrite !Hx. unfold on_strings. cbn [strings views].
  rewrite (section_reads _ _ _ _ _ _ _ Hw Hd Hl Ha). unfold ret. cbn [strings views]. rewrite He. cbn [strings views].
  rewrite Hx. unfold on_strings. cbn [strings]. by rewrite Hst.
Qed.
End props.

Definition results (h : thist) : option (list tobs) := match h with TFinished rs _ => Some rs | _ => None end.
Definition start : list top := TCall <$> two.
(** string 0 is "abc" in the object, string 1 "abcdef" in a block for 12. View 0 is all of string 1, view 1 "cde" of it,
    view 2 string 0. String 1 is appended to, edited and moved; the views see the changes *)
Example C113_history_case :
  let ps := start ++
    [TView 0 1; TSubstr 1 0 2 3; TView 2 0; TAll 1; TAll 2; TAt 1 3; TCall (SPushBack 1 x7a); TSize 0; TCall (SErase 1 5 6);
     TCall (SNewMove 3 1); TIndex 1 2; TCall (SSwap 3 1); TCall (SReplaceFill 1 2 3 1 x71); TAll 1; TPrefix 1 1; TSuffix 1 1; TAll 1;
     TCall (SPushBack 0 x79); TCall (SErase1 0 0); TAll 2] in
  @trespects good ps t_init ∅ ∅ ∧
  (drop 2 <$> results (@trun good ps t_init)) =
    Some [TUnit; TUnit; TUnit; TText [x63; x64; x65]; TText abc; TThrew OutOfRange; TObs OUnit; TNat 6; TObs (ONat 5);
          TObs OUnit; TVal x65; TObs OUnit; TObs OUnit; TText [x71; x64; x65]; TUnit; TUnit; TText [x64];
          TObs OUnit; TObs (ONat 0); TText [x62; x63; x79]].
Proof. vm_compute. done. Qed.
(** the c_str() ends at the first null character; the view of an empty string has no address *)
Example C113_c_str_case :
  let ps := start ++
    [TCStr 0 1; TSize 0; TCall (SInsertFill 1 3 1 NUL); TCStr 1 1; TAll 1; TView 2 1; TSize 2; TAll 0;
     TCall (SClear 0); TView 3 0; TSize 3; TAll 3; TSubstr 3 3 0 0; TAt 3 0; TCStr 4 0; TSize 4] in
  @trespects good ps t_init ∅ ∅ ∧
  (drop 2 <$> results (@trun good ps t_init)) =
    Some [TUnit; TNat 6; TObs (ONat 3); TUnit; TText abc; TUnit; TNat 7; TText [x61; x62; x63; NUL; x64; x65];
          TObs OUnit; TUnit; TNat 0; TText []; TUnit; TThrew OutOfRange; TUnit; TNat 0].
Proof. vm_compute. done. Qed.
(** views that are no longer sections: the text has moved to a larger block, is shorter, or was in an object that has
    been swapped *)
Example C113_dangling_case :
  let go ps := start ++ [TView 0 1; TSubstr 1 0 2 3; TView 2 0] ++ ps in
  (@trespects good (go [TCall (SInsertFill 1 0 7 x61); TIndex 0 1]) t_init ∅ ∅ → False) ∧
  (∃ f, @trun good (go [TCall (SInsertFill 1 0 7 x61); TIndex 0 1]) t_init = TFaulted f) ∧
  (@trespects good (go [TCall (SResize 1 4); TIndex 1 0]) t_init ∅ ∅ → False) ∧
  (@trespects good (go [TCall (SSwap 0 1); TIndex 2 0]) t_init ∅ ∅ → False) ∧
  @trespects good (go [TCall (SNewMove 3 1); TIndex 0 0]) t_init ∅ ∅.
Proof. vm_compute. split; [done|]. split; [eauto|]. done. Qed.
(** the second allocation fails: the insertion has no effect and the views stay *)
Example C113_failure_case :
  let C := cfg (λ k, k =? 1) in
  let ps := start ++ [TView 0 1; TCall (SInsertFill 1 2 9 x7a); TAll 0] in
  @trespects C ps t_init ∅ ∅ ∧
  (drop 2 <$> results (@trun C ps t_init)) = Some [TUnit; TThrew BadAlloc; TText abcdef].
Proof. vm_compute. done. Qed.
(** 8 characters fit into the block for 12, but not beside the 6 that are there *)
Example C113_assign_case :
  let go o := @trun good (start ++ [TView 0 1; TIndex 0 2; TCall o; TIndex 0 2]) t_init in
  go (SAssignRange 1 (ext (replicate 8 x62))) = TFaulted UseAfterFree ∧
  go (SAssignInput 1 [Some x62; Some x62; Some x62]) = TFaulted UseAfterFree ∧
  (drop 2 <$> results (go (SAssignFill 1 8 x62))) = Some [TUnit; TVal x63; TObs OUnit; TVal x62].
Proof. vm_compute. done. Qed.

Print Assumptions C113_history_partial.
Print Assumptions C113_assign_refuted.
