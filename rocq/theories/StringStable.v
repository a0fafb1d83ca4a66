(** Lemmas for C107. *)
From stdpp Require Import prelude gmap.
From Coq Require Import ZArith Lia.
From Verif Require Import Cpp StringModel StringSpec StringMem StringRep StringOps StringOps2 StringOps3 StringHistory
  StringExtra StringStableSpec.
Local Open Scope nat_scope.

Section stable.
Context `{C : StrCfg} (Hcfg : cfg_ok).
Notation state := (gmap nat (list char)).
Notation raws := (gmap nat raw).

(** ** Input iterators, within capacity *)
Lemma with_input_kept {A} w ρ x s vs (body : nat → M world A) n r w' : Rep w ρ → ρ !! x = Some s → n ≤ cap s →
  (∀ t q cs w1, x ≠ t → ρ !! t = None → values vs = Some cs → Rep w1 (<[t:=q]> ρ) → holds q cs →
     match body t w1 with Ok _ w2 => ∃ l, mods w1 (<[t:=q]> ρ) x s n l w2 | _ => True end) →
  with_input vs body w = Ok r w' → ∃ r', Rep w' (<[x:=r']> ρ) ∧ kept s r'.
Proof.
  intros H Hx Hn Hbody. unfold with_input.
  destruct (temp_name_eq w ρ H) as (t & Et & Ht). erewrite bind_ok by exact Et.
  assert (Hxt : x ≠ t) by congruence.
  pose proof (new_input_run Hcfg w ρ t vs H Ht) as Hi. unfold run_to in Hi.
  unfold bind at 1. destruct (str_new_input t vs w) as [u w1|e w1|f|]; try done.
  destruct Hi as (cs & q & Ev & H1 & Hq & _). specialize (Hbody t q cs w1 Hxt Ht Ev H1 Hq).
  unfold bind at 1, on_exn. destruct (body t w1) as [a w2|e w2|f|]; try done.
  2:{ by destruct (storage_dtor t w2). }
  destruct Hbody as (l & r1 & H2 & _ & _ & Hk). destruct (Hk Hn) as [Hk1 _].
  rewrite insert_commute in H2 by done.
  destruct (dtor_eq w2 _ t q H2 (lookup_insert _ _ _)) as (w3 & E3 & _ & H3).
  erewrite bind_ok by exact E3. intros [= <- <-].
  rewrite delete_insert in H3 by (by rewrite lookup_insert_ne). eauto.
Qed.
Ltac inside H1 Hq := erewrite bind_ok by (eapply (str_size_eq _ _ _ _ H1); by rewrite lookup_insert); rewrite (proj1 Hq).
Lemma append_input_kept w ρ x s l vs r w' : Rep w ρ → ρ !! x = Some s → holds s l → length l + length vs ≤ cap s →
  str_append_input x vs w = Ok r w' → ∃ r', Rep w' (<[x:=r']> ρ) ∧ kept s r'.
Proof.
  intros H Hx Hl Hn. unfold str_append_input. eapply (with_input_kept w ρ x s vs _ (length l + length vs)); [done..|].
  intros t q cs w1 Hxt Ht Ev H1 Hq. assert (Hx1 : <[t:=q]> ρ !! x = Some s) by by rewrite lookup_insert_ne.
  inside H1 Hq.
  pose proof (append_na_run Hcfg w1 _ x s l (fill_str x t) cs H1 Hx1 Hl) as Hr. unfold run_to in Hr.
  rewrite (values_length _ _ Ev) in *.
  specialize (Hr ltac:(eapply fills_str; [done|by rewrite lookup_insert|done])).
  specialize (Hr ltac:(rewrite <-(values_length _ _ Ev); by eapply (temp_countable Hcfg))).
  destruct (append_no_aliasing x (length vs) (fill_str x t) w1) as [u w2|e w2|f|]; try done. eauto.
Qed.
Lemma insert_input_kept w ρ x s l i vs r w' : Rep w ρ → ρ !! x = Some s → holds s l → i ≤ length l → length l + length vs ≤ cap s →
  str_insert_input x i vs w = Ok r w' → ∃ r', Rep w' (<[x:=r']> ρ) ∧ kept s r'.
Proof.
  intros H Hx Hl Hi Hn. unfold str_insert_input. eapply (with_input_kept w ρ x s vs _ (length l + length vs)); [done..|].
  intros t q cs w1 Hxt Ht Ev H1 Hq. assert (Hx1 : <[t:=q]> ρ !! x = Some s) by by rewrite lookup_insert_ne.
  inside H1 Hq.
  pose proof (insert_na_run Hcfg w1 _ x s l i (fill_str x t) cs H1 Hx1 Hl) as Hr. unfold run_to in Hr.
  rewrite (values_length _ _ Ev) in *.
  specialize (Hr ltac:(eapply fills_str; [done|by rewrite lookup_insert|done]) Hi).
  specialize (Hr ltac:(rewrite <-(values_length _ _ Ev); by eapply (temp_countable Hcfg))).
  destruct (insert_no_aliasing x i (length vs) (fill_str x t i) w1) as [u w2|e w2|f|]; try done.
  destruct Hr as [_ Hr]. eauto.
Qed.
Lemma replace_input_kept w ρ x s l i j vs r w' : Rep w ρ → ρ !! x = Some s → holds s l → i ≤ j ≤ length l →
  length l - (j - i) + length vs ≤ cap s →
  str_replace_input x i j vs w = Ok r w' → ∃ r', Rep w' (<[x:=r']> ρ) ∧ kept s r'.
Proof.
  intros H Hx Hl Hi Hn. unfold str_replace_input.
  eapply (with_input_kept w ρ x s vs _ (length l - (j - i) + length vs)); [done..|].
  intros t q cs w1 Hxt Ht Ev H1 Hq. assert (Hx1 : <[t:=q]> ρ !! x = Some s) by by rewrite lookup_insert_ne.
  inside H1 Hq. pose proof (temp_countable Hcfg _ _ _ _ _ _ _ _ H1 Hxt Hx Hl Hq) as Hcn.
  pose proof (replace_na_run Hcfg w1 _ x s l i j (fill_str x t) cs H1 Hx1 Hl) as Hr. unfold run_to in Hr.
  rewrite (values_length _ _ Ev) in *.
  specialize (Hr ltac:(eapply fills_str; [done|by rewrite lookup_insert|done]) Hi).
  specialize (Hr ltac:(unfold countable in *; lia)).
  destruct (replace_no_aliasing x i j (length vs) (fill_str x t) w1) as [u w2|e w2|f|]; try done. eauto.
Qed.

(** ** Where the buffers are after a call *)
Lemma slen_insert (m : state) x l : slen (<[x:=l]> m) x = length l.
Proof. apply slen_eq. by rewrite lookup_insert. Qed.
Lemma bind_Ok_inv {A B} (p : M world A) (q : A → M world B) w b w' : bind p q w = Ok b w' →
  ∃ a w1, p w = Ok a w1 ∧ q a w1 = Ok b w'.
Proof. unfold bind. destruct (p w) as [a w1|e w1|f|]; try done. eauto. Qed.
Ltac sized Hd Hy Hns Hle := injection Hd as <- <-; rewrite slen_insert in Hy;
  match type of Hy with context [?p <=? ?q] => destruct (Nat.leb_spec p q) as [Hle|]; [|discriminate Hy] end;
  injection Hy as <-; eapply Hns; [reflexivity|]; unfold splice in *;
  rewrite ?app_length, ?take_length, ?drop_length, ?replicate_length in Hle; try lia.
Lemma at_data w ρ x s : Rep w ρ → ρ !! x = Some s → ∀ p, hp x s = p → str_data x w = Ok (p, 0) w.
Proof. intros H Hx p <-. by eapply str_data_eq. Qed.
Lemma kept_data w ρ x s r p : Rep w ρ → ρ !! x = Some r → kept s r → hp x s = p → str_data x w = Ok (p, 0) w.
Proof. intros H Hx [Hh _] <-. eapply at_data; [done..|]. unfold hp. by rewrite Hh. Qed.
(** two strings [y] and [z] after a move from [z] to [y] *)
Lemma moved_data ρ w' y z s q r x e : ρ !! z = Some s → (∀ t, ρ !! y = Some t → ρ !! y = Some q) →
  y ≠ z → Rep w' (<[z:=moved_raw s]> (<[y:=r]> ρ)) → r_home r = r_home s →
  x = y ∨ x = z → is_Some (ρ !! x) →
  (if decide (x = z) then Some (if (if r_home s then false else true) then x else y)
   else if (if r_home q then false else true) && (if r_home s then false else true) then Some x else None) = Some e →
  ∀ t, ρ !! x = Some t → str_data e w' = Ok (hp x t, 0) w'.
Proof.
  intros Hz Hq Hyz H' Hh Hor Hsx He t Ht. case_decide as Hd.
  - subst x. assert (t = s) as -> by congruence. injection He as <-. destruct (r_home s) as [b|] eqn:Hb.
    + eapply at_data; [exact H'|rewrite lookup_insert_ne by done; by rewrite lookup_insert|]. unfold hp. by rewrite Hh, Hb.
    + eapply at_data; [exact H'|by rewrite lookup_insert|]. unfold moved_raw, hp. by rewrite Hb, Hb.
  - destruct Hor as [->|]; [|done]. pose proof (Hq _ Ht) as Hq'. assert (q = t) as -> by congruence.
    destruct (r_home t) eqn:Et; [done|]. destruct (r_home s) eqn:Es; [done|]. injection He as <-.
    eapply at_data; [exact H'|rewrite lookup_insert_ne by done; by rewrite lookup_insert|]. unfold hp. by rewrite Hh, Et.
Qed.

(** the same after [y] and [z] were swapped *)
Lemma swapped_data ρ w' y z q s q' s' x e : ρ !! y = Some q → ρ !! z = Some s → y ≠ z →
  Rep w' (<[z:=s']> (<[y:=q']> ρ)) → r_home q' = r_home s → r_home s' = r_home q → x = y ∨ x = z →
  (if (if r_home q then false else true) && (if r_home s then false else true) then Some x
   else if (if decide (x = y) then if r_home q then false else true else if r_home s then false else true) then None
   else Some (if decide (x = y) then z else y)) = Some e →
  ∀ t, ρ !! x = Some t → str_data e w' = Ok (hp x t, 0) w'.
Proof.
  intros Hq Hs Hyz H' Eq Es Hor He t Ht.
  assert (Hy : <[z:=s']> (<[y:=q']> ρ) !! y = Some q') by (rewrite lookup_insert_ne by done; by rewrite lookup_insert).
  assert (Hz : <[z:=s']> (<[y:=q']> ρ) !! z = Some s') by by rewrite lookup_insert.
  destruct Hor as [->| ->].
  - rewrite !(decide_True (P := y = y)) in He by done. assert (t = q) as -> by congruence.
    destruct (r_home q) eqn:Ehq, (r_home s) eqn:Ehs; cbn [andb] in He; simplify_eq.
    + eapply at_data; [exact H'|exact Hz|]. unfold hp. by rewrite Es, Ehq.
    + eapply at_data; [exact H'|exact Hz|]. unfold hp. by rewrite Es, Ehq.
    + eapply at_data; [exact H'|exact Hy|]. unfold hp. by rewrite Eq, Ehq.
  - rewrite !(decide_False (P := z = y)) in He by done. assert (t = s) as -> by congruence.
    destruct (r_home q) eqn:Ehq, (r_home s) eqn:Ehs; cbn [andb] in He; simplify_eq.
    + eapply at_data; [exact H'|exact Hy|]. unfold hp. by rewrite Eq, Ehs.
    + eapply at_data; [exact H'|exact Hy|]. unfold hp. by rewrite Eq, Ehs.
    + eapply at_data; [exact H'|exact Hz|]. unfold hp. by rewrite Es, Ehs.
Qed.

(** a call that keeps to its buffer *)
Lemma needs_data o w m ρ x n s r w' : Rep w ρ → rel ρ m → sstep (inline w) o m ≠ Bad → needs o m = Some (x, n) →
  ρ !! x = Some s → n ≤ cap s → sexec o w = Ok r w' → str_data x w' = Ok (hp x s, 0) w'.
Proof.
  intros H Hr Hb Hn Hs Hle E. pose proof (exec_run Hcfg o w m ρ H Hr Hb) as Hx. unfold run_to in Hx. rewrite E in Hx.
  destruct Hx as (m' & ρ' & _ & H' & _ & _ & _ & Hk & _). destruct (Hk _ _ _ Hn Hs Hle) as ((q & Hq & Hkq) & _).
  by eapply kept_data.
Qed.
Lemma stands_data o w m m' ρ x y s r w' : Rep w ρ → rel ρ m → sstep (inline w) o m = Done r m' → ρ !! x = Some s →
  stands (inline w) o m m' (cap s) x = Some y → ¬ crowded o m (cap s) x → sexec o w = Ok r w' →
  str_data y w' = Ok (hp x s, 0) w'.
Proof.
  intros H Hrel Hd Hs Hy Hc E. assert (Hb : sstep (inline w) o m ≠ Bad) by by rewrite Hd.
  unfold stands in Hy. destruct (decide (x ∉ touches o)) as [Ht|Ht].
  { injection Hy as <-. pose proof (exec_run Hcfg o w m ρ H Hrel Hb) as Hx. unfold run_to in Hx. rewrite E in Hx.
    destruct Hx as (m1 & ρ' & _ & H' & _ & _ & Hf & _). eapply at_data; [exact H'|by rewrite Hf|done]. }
  destruct (m !! x) as [l|] eqn:Hx.
  2:{ by rewrite (rel_none _ _ _ Hrel Hx) in Hs. }
  destruct (rel_get _ _ _ _ Hrel Hx) as (s' & Hs' & Hl). assert (s' = s) as -> by congruence. clear Hs'.
  assert (Hns : ∀ n, needs o m = Some (x, n) → n ≤ cap s → str_data x w' = Ok (hp x s, 0) w')
    by (intros n Hn Hle; by eapply needs_data).
  pose proof (slen_eq _ _ _ Hx) as Hsl.
  destruct o as [a|a k|a vs|a b|a b|a n c|a|a k k'|a b|a b|a k|a vs|a cs|a n c|a k|a vs|a cs|a n c
                |a i k|a i vs|a i cs|a i n c|a i j k|a i j vs|a i j cs|a i j n c|a i j|a i|a c|a
                |a n|a n|a n c|a|a|a b|a b i|a b i n|a b i|a b i n|a i c|a i|a i|a|a|a i|a|a];
    cbn [touches writes] in Ht; apply dec_stable in Ht; rewrite ?elem_of_cons, elem_of_nil in Ht;
    try done; try (destruct Ht as [<-|[]]); cbn [sstep] in Hd; cbn [needs] in Hns; cbn [crowded] in Hc;
    unfold snew, supd, sinput, sget in Hd; rewrite ?Hx in Hd; rewrite ?Hsl in *; try done;
    try (unfold svalues in Hd; repeat (destruct (srange _ _); [|done]; try (destruct (values _); [|done])); done).
  all: try (match type of Hd with context [svalues ?q ?k] => destruct (svalues q k) as [cs'|] eqn:Hv; [|done];
         try (pose proof (svalues_ext _ _ _ Hv) as ->) end).
  - (* SNewMove *) subst b. rewrite Hx in Hd. destruct (m !! a) eqn:Ha; [done|]. assert (Hax : a ≠ x) by congruence.
    pose proof (rel_none _ _ _ Hrel Ha) as Har. cbn [sexec] in E. unfold obs_unit, str_new_move, noexcept in E.
    destruct (move_new_eq w ρ a x s l H Har Hs Hl Hcfg) as (w1 & r1 & E1 & _ & H1 & _ & Hh & _).
    erewrite bind_ok in E by (by rewrite E1). injection E as _ <-.
    rewrite decide_False, decide_True in Hy by done. rewrite (inline_eq _ _ _ _ H Hs) in Hy.
    eapply (moved_data ρ w1 a x s s r1 x); [done|congruence|done|exact H1|done|by right|eauto|rewrite decide_True by done; exact Hy|done].
  - (* SCopyAssign *) destruct (m !! b) as [k|] eqn:Hk; [|done]. rewrite (slen_eq _ _ _ Hk) in *.
    case_decide as Hxb.
    + subst b. injection Hy as <-. cbn [sexec] in E. unfold obs_unit, str_copy_assign in E.
      rewrite decide_True in E by done. erewrite bind_ok in E by (erewrite bind_ok by (by eapply get_str_eq, rep_obj); done).
      injection E as _ <-. by eapply at_data.
    + case_match; [|done]. injection Hy as <-. eapply Hns; [done|]. destruct (decide (cap s < length l + length k)); [|lia].
      exfalso. by apply Hc.
  - (* SMoveAssign, the target *) destruct (m !! b) as [k|] eqn:Hk; [|done]. cbn [sexec] in E.
    unfold obs_unit, str_move_assign, noexcept in E. destruct (decide (x = b)) as [<-|Hxb].
    + injection Hy as <-. erewrite bind_ok in E by (by erewrite move_assign_self). injection E as _ <-. by eapply at_data.
    + destruct (rel_get _ _ _ _ Hrel Hk) as (q & Hq & Hlq).
      destruct (move_assign_eq w ρ x b q s k H Hxb Hs Hq Hlq Hcfg) as (w1 & r1 & E1 & _ & H1 & _ & Hh & _).
      erewrite bind_ok in E by (by rewrite E1). injection E as _ <-.
      rewrite (inline_eq _ _ _ _ H Hs), (inline_eq _ _ _ _ H Hq) in Hy.
      eapply (moved_data ρ w1 x b q s r1 x); [done|congruence|done|exact H1|done|by left|eauto|rewrite decide_False by done; exact Hy|done].
  - (* SMoveAssign, the source *) subst b. destruct (m !! a) as [k|] eqn:Hk; [|done]. cbn [sexec] in E.
    unfold obs_unit, str_move_assign, noexcept in E. destruct (decide (a = x)) as [->|Hax].
    + injection Hy as <-. erewrite bind_ok in E by (by erewrite move_assign_self). injection E as _ <-. by eapply at_data.
    + destruct (rel_get _ _ _ _ Hrel Hk) as (q & Hq & Hlq).
      destruct (move_assign_eq w ρ a x s q l H Hax Hq Hs Hl Hcfg) as (w1 & r1 & E1 & _ & H1 & _ & Hh & _).
      erewrite bind_ok in E by (by rewrite E1). injection E as _ <-.
      rewrite decide_True in Hy by done. rewrite (inline_eq _ _ _ _ H Hs) in Hy.
      eapply (moved_data ρ w1 a x s q r1 x); [done|congruence|done|exact H1|done|by right|eauto|rewrite decide_True by done; exact Hy|done].
  - (* SAssignRange *) sized Hd Hy Hns Hle.
  - (* SAssignIlist *) sized Hd Hy Hns Hle.
  - (* SAssignFill *) sized Hd Hy Hns Hle.
  - (* SAppendRange *) case_decide; [|done]. destruct (bind_cs Hcfg w ρ m _ _ H Hrel Hv) as (_ & _ & _ & Hlen & _).
    sized Hd Hy Hns Hle.
  - (* SAppendInput *) case_decide; [|done]. destruct (values vs) as [cs|] eqn:Ev; [|done].
    pose proof (values_length _ _ Ev) as Hlen. injection Hd as <- <-. rewrite slen_insert in Hy.
    match type of Hy with context [?p <=? ?q] => destruct (Nat.leb_spec p q) as [Hle|]; [|done] end. injection Hy as <-.
    unfold splice in Hle. rewrite firstn_all, drop_all, app_nil_r, app_length in Hle.
    cbn [sexec] in E. unfold obs_unit in E. apply bind_Ok_inv in E as ([] & w1 & E1 & E2). injection E2 as <-.
    destruct (append_input_kept w ρ x s l vs tt w1 H Hs Hl) as (q & H1 & Hk); [lia|exact E1|].
    eapply kept_data; [exact H1|by rewrite lookup_insert|exact Hk|done].
  - (* SAppendIlist *) sized Hd Hy Hns Hle.
  - (* SAppendFill *) case_decide; [|done]. sized Hd Hy Hns Hle.
  - (* SInsertRange *) unfold sreplace in Hd. rewrite ?Hv in Hd. case_decide; [|done].
    destruct (bind_cs Hcfg w ρ m _ _ H Hrel Hv) as (_ & _ & _ & Hlen & _). sized Hd Hy Hns Hle.
  - (* SInsertInput *) case_decide as Hi; [|done]. destruct (values vs) as [cs|] eqn:Ev; [|done].
    pose proof (values_length _ _ Ev) as Hlen. injection Hd as <- <-. rewrite slen_insert in Hy.
    match type of Hy with context [?p <=? ?q] => destruct (Nat.leb_spec p q) as [Hle|]; [|done] end. injection Hy as <-.
    unfold splice in Hle. rewrite !app_length, take_length, drop_length in Hle.
    cbn [sexec] in E. unfold obs_nat in E. apply bind_Ok_inv in E as (j & w1 & E1 & E2). injection E2 as _ <-.
    destruct (insert_input_kept w ρ x s l i vs j w1 H Hs Hl) as (q & H1 & Hk); [lia|lia|exact E1|].
    eapply kept_data; [exact H1|by rewrite lookup_insert|exact Hk|done].
  - (* SInsertIlist *) unfold sreplace in Hd. rewrite ?Hv in Hd. case_decide; [|done]. sized Hd Hy Hns Hle.
  - (* SInsertFill *) unfold sreplace in Hd. case_decide; [|done]. sized Hd Hy Hns Hle.
  - (* SReplaceRange *) unfold sreplace in Hd. rewrite ?Hv in Hd. case_decide; [|done].
    sized Hd Hy Hns Hle.
  - (* SReplaceInput *) case_decide as Hi; [|done]. destruct (values vs) as [cs|] eqn:Ev; [|done].
    pose proof (values_length _ _ Ev) as Hlen. injection Hd as <- <-. rewrite slen_insert in Hy.
    match type of Hy with context [?p <=? ?q] => destruct (Nat.leb_spec p q) as [Hle|]; [|done] end. injection Hy as <-.
    unfold splice in Hle. rewrite !app_length, take_length, drop_length in Hle.
    cbn [sexec] in E. unfold obs_unit in E. apply bind_Ok_inv in E as ([] & w1 & E1 & E2). injection E2 as <-.
    destruct (replace_input_kept w ρ x s l i j vs tt w1 H Hs Hl) as (q & H1 & Hk); [lia|lia|exact E1|].
    eapply kept_data; [exact H1|by rewrite lookup_insert|exact Hk|done].
  - (* SReplaceIlist *) unfold sreplace in Hd. rewrite ?Hv in Hd. case_decide; [|done]. sized Hd Hy Hns Hle.
  - (* SReplaceFill *) unfold sreplace in Hd. case_decide; [|done]. sized Hd Hy Hns Hle.
  - (* SErase *) unfold sreplace in Hd. case_decide; [|done]. sized Hd Hy Hns Hle.
  - (* SErase1 *) unfold sreplace in Hd. case_decide; [|done]. sized Hd Hy Hns Hle.
  - (* SPushBack *) sized Hd Hy Hns Hle. cbn [length] in Hle. lia.
  - (* SPopBack *) case_decide; [done|]. sized Hd Hy Hns Hle.
  - (* SReserve *) match type of Hy with context [?p <=? ?q] => destruct (Nat.leb_spec p q) as [Hle|]; [|done] end.
    injection Hy as <-. by eapply Hns.
  - (* SResize *) sized Hd Hy Hns Hle.
  - (* SResizeFill *) sized Hd Hy Hns Hle.
  - (* SShrink *) cbn [sexec] in E. unfold obs_unit in E.
    destruct (shrink_eq w ρ x s l H Hs Hl Hcfg) as (w1 & r1 & E1 & _ & H1 & _ & _ & Hbig & Hin).
    erewrite bind_ok in E by exact E1. injection E as _ <-.
    rewrite (inline_eq _ _ _ _ H Hs) in Hy.
    assert (y = x ∧ r1 = s) as [-> ->].
    { destruct (r_home s) eqn:Eh; [|injection Hy as <-; by rewrite Hin].
      cbn [orb] in Hy. match type of Hy with context [?p <? ?q] => destruct (Nat.ltb_spec p q) as [Hle|]; [|done] end.
      injection Hy as <-. by rewrite Hbig. }
    eapply at_data; [exact H1|by rewrite lookup_insert|done].
  - (* SClear *) sized Hd Hy Hns Hle.
  - (* SSwap, the first *) destruct (m !! b) as [k|] eqn:Hk; [|done]. cbn [sexec] in E. unfold obs_unit in E.
    destruct (decide (x = b)) as [<-|Hxb].
    + injection Hy as <-. erewrite bind_ok in E.
      2:{ unfold str_swap, noexcept. rewrite decide_True by done. by erewrite bind_ok by (by eapply get_str_eq, rep_obj). }
      injection E as _ <-. by eapply at_data.
    + destruct (rel_get _ _ _ _ Hrel Hk) as (q & Hq & Hlq).
      destruct (swap_eq w ρ x b s q l k H Hxb Hs Hq Hl Hlq Hcfg) as (w1 & r1 & q1 & E1 & _ & H1 & _ & _ & Hh1 & Hh2 & _).
      erewrite bind_ok in E by exact E1. injection E as _ <-.
      rewrite (inline_eq _ _ _ _ H Hs), (inline_eq _ _ _ _ H Hq) in Hy.
      eapply (swapped_data ρ w1 x b s q r1 q1 x); [done|done|done|exact H1|done|done|by left| |done].
      rewrite !(decide_True (P := x = x)) in * by done. exact Hy.
  - (* SSwap, the second *) subst b. destruct (m !! a) as [k|] eqn:Hk; [|done]. cbn [sexec] in E. unfold obs_unit in E.
    destruct (decide (a = x)) as [->|Hax].
    + injection Hy as <-. erewrite bind_ok in E.
      2:{ unfold str_swap, noexcept. rewrite decide_True by done. by erewrite bind_ok by (by eapply get_str_eq, rep_obj). }
      injection E as _ <-. by eapply at_data.
    + destruct (rel_get _ _ _ _ Hrel Hk) as (q & Hq & Hlq).
      destruct (swap_eq w ρ a x q s k l H Hax Hq Hs Hlq Hl Hcfg) as (w1 & r1 & q1 & E1 & _ & H1 & _ & _ & Hh1 & Hh2 & _).
      erewrite bind_ok in E by exact E1. injection E as _ <-.
      rewrite (inline_eq _ _ _ _ H Hs), (inline_eq _ _ _ _ H Hq) in Hy.
      eapply (swapped_data ρ w1 a x q s r1 q1 x); [done|done|done|exact H1|done|done|by right| |done].
      rewrite !(decide_False (P := x = a)) in * by done. exact Hy.
  - (* SSubstrTailMove *) subst b. rewrite Hx in Hd. destruct (m !! a) eqn:Ha; [done|]. assert (Hax : a ≠ x) by congruence.
    destruct (decide (i ≤ length l)) as [Hi|]; [|done]. pose proof (rel_none _ _ _ Hrel Ha) as Har.
    destruct (erase_eq Hcfg w ρ x s l 0 i H Hs Hl) as (w1 & E1 & _ & r1 & H1 & Hl1 & Hk1); [lia|].
    cbn [take app] in Hl1.
    destruct (move_new_eq w1 _ a x r1 (drop i l) H1) as (w2 & r2 & E2 & _ & H2 & _ & Hh2 & _);
      [by rewrite lookup_insert_ne|by rewrite lookup_insert|done|done|].
    cbn [sexec] in E. unfold obs_unit, str_substr_tail_move, str_new_move, noexcept in E.
    erewrite bind_ok in E by (erewrite bind_ok by exact E1; by rewrite E2). injection E as _ <-.
    rewrite decide_False, decide_True in Hy by done. rewrite (inline_eq _ _ _ _ H Hs) in Hy.
    assert (Hp : hp x s = hp x r1) by (unfold hp; by rewrite (proj1 Hk1)). rewrite Hp.
    eapply (moved_data (<[x:=r1]> ρ) w2 a x r1 s r2 x);
      [by rewrite lookup_insert|intros ? Hn; by rewrite lookup_insert_ne, Har in Hn|done|exact H2|done|by right|
       rewrite lookup_insert; eauto| |by rewrite lookup_insert].
    rewrite decide_True by done. rewrite (proj1 Hk1). exact Hy.
  - (* SSubstrMove *) subst b. rewrite Hx in Hd. destruct (m !! a) eqn:Ha; [done|]. assert (Hax : a ≠ x) by congruence.
    destruct (decide (i + n ≤ length l)) as [Hi|]; [|done]. pose proof (rel_none _ _ _ Hrel Ha) as Har.
    destruct (erase_eq Hcfg w ρ x s l (i + n) (length l) H Hs Hl) as (w1 & E1 & _ & r1 & H1 & Hl1 & Hk1); [lia|].
    rewrite drop_all, app_nil_r in Hl1.
    destruct (erase_eq Hcfg w1 _ x r1 _ 0 i H1 (lookup_insert _ _ _) Hl1) as (w2 & E2 & _ & r2 & H2 & Hl2 & Hk2);
      [rewrite take_length; lia|].
    rewrite insert_insert in H2.
    destruct (move_new_eq w2 _ a x r2 (take 0 (take (i + n) l) ++ drop i (take (i + n) l)) H2) as (w3 & r3 & E3 & _ & H3 & _ & Hh3 & _);
      [by rewrite lookup_insert_ne|by rewrite lookup_insert|exact Hl2|done|].
    cbn [sexec] in E. unfold obs_unit, str_substr_move, str_new_move, noexcept in E.
    erewrite bind_ok in E.
    2:{ erewrite bind_ok by by eapply str_size_eq. rewrite (proj1 Hl). erewrite bind_ok by exact E1.
        erewrite bind_ok by exact E2. by rewrite E3. }
    injection E as _ <-.
    rewrite decide_False, decide_True in Hy by done. rewrite (inline_eq _ _ _ _ H Hs) in Hy.
    assert (Hh : r_home r2 = r_home s) by (by rewrite (proj1 Hk2), (proj1 Hk1)).
    assert (Hp : hp x s = hp x r2) by (unfold hp; by rewrite Hh). rewrite Hp.
    eapply (moved_data (<[x:=r2]> ρ) w3 a x r2 s r3 x);
      [by rewrite lookup_insert|intros ? Hn; by rewrite lookup_insert_ne, Har in Hn|done|exact H3|done|by right|
       rewrite lookup_insert; eauto| |by rewrite lookup_insert].
    rewrite decide_True by done. rewrite Hh. exact Hy.
  - (* SSet *) case_decide; [|done]. sized Hd Hy Hns Hle.
Qed.

(** ** Buffers given up *)
Lemma released w1 w' ρ x t s q r b i : Rep w1 (<[t:=q]> ρ) → ρ !! t = None → ρ !! x = Some s → r_home s = Some b →
  Rep w' (<[x:=r]> ρ) → r_home r = r_home q → rd (inr b, i) w' = Stuck UseAfterFree.
Proof.
  intros H1 Ht Hs Hb H' Hh. assert (Hxt : x ≠ t) by congruence.
  assert (Hs1 : <[t:=q]> ρ !! x = Some s) by by rewrite lookup_insert_ne.
  unfold rd. cbn [fst]. destruct (mem w' !! inr b) as [c|] eqn:Hm; [|done]. exfalso.
  apply (rep_mem _ _ H') in Hm as (z & u & Hz & Hp & _). destruct (decide (x = z)) as [<-|Hxz].
  - rewrite lookup_insert in Hz. injection Hz as <-. apply Hxt. eapply (rep_inj _ _ H1); [exact Hs1|by rewrite lookup_insert|].
    unfold hp in *. rewrite Hh in Hp. rewrite Hb. by destruct (r_home q).
  - rewrite lookup_insert_ne in Hz by done. apply Hxz. eapply (rep_inj _ _ H1); [exact Hs1| |].
    + rewrite lookup_insert_ne; [exact Hz|congruence].
    + rewrite Hp. unfold hp. by rewrite Hb.
Qed.
Lemma assign_range_moves w ρ m x s l k vs b i r w' : Rep w ρ → rel ρ m → ρ !! x = Some s → holds s l → r_home s = Some b →
  srange m k = Some vs → cap s < length l + length vs → str_assign_range x k w = Ok r w' → rd (inr b, i) w' = Stuck UseAfterFree.
Proof.
  intros H Hr Hs Hl Hb Hv Hlt E.
  destruct (bind_range_eq Hcfg w ρ m k vs H (λ y l', rel_get _ _ y l' Hr) Hv) as (f & Ef & Hsrc & Hlen & Hpd).
  pose proof (rep_cap Hcfg _ _ _ _ H Hs) as [_ Hmax]. pose proof (holds_cap _ _ Hl).
  unfold str_assign_range in E. unfold bind at 1 in E. rewrite Ef in E. unfold bind at 1 in E. rewrite (str_size_eq _ _ _ _ H Hs) in E.
  unfold bind at 1 in E. rewrite (str_capacity_eq _ _ _ _ H Hs), (proj1 Hl) in E. cbn [snd] in E.
  pose proof (ptrdiff_half ltac:(apply Hcfg)). rewrite wadd_small in E by lia.
  destruct (Nat.leb_spec (length vs + length l) (cap s)); [lia|].
  destruct (temp_name_eq w ρ H) as (t & Et & Ht). unfold bind at 1 in E. rewrite Et in E.
  pose proof (new_from_run Hcfg w ρ t f vs H Ht Hsrc ltac:(apply (small_roomy Hcfg); lia)) as Hn. unfold run_to in Hn.
  apply bind_Ok_inv in E as ([] & w1 & E1 & E2). rewrite E1 in Hn. destruct Hn as (cs & q & _ & Hr1 & Hq & _).
  destruct (commit_eq w1 ρ x t s q cs Hr1 Ht Hs Hq Hcfg) as (w2 & r' & E3 & _ & Hr2 & _ & Hh & _).
  rewrite E3 in E2. injection E2 as _ <-. eapply released; [exact Hr1|exact Ht|exact Hs|exact Hb|exact Hr2|exact Hh].
Qed.
Lemma assign_input_moves w ρ x s vs b i r w' : Rep w ρ → ρ !! x = Some s → r_home s = Some b →
  str_assign_input x vs w = Ok r w' → rd (inr b, i) w' = Stuck UseAfterFree.
Proof.
  intros H Hs Hb E. unfold str_assign_input, with_input in E.
  destruct (temp_name_eq w ρ H) as (t & Et & Ht). erewrite bind_ok in E by exact Et.
  assert (Hxt : x ≠ t) by congruence.
  pose proof (new_input_run Hcfg w ρ t vs H Ht) as Hi. unfold run_to in Hi.
  apply bind_Ok_inv in E as ([] & w1 & E1 & E). rewrite E1 in Hi. destruct Hi as (cs & q & Ev & H1 & Hq & _).
  destruct (move_assign_eq w1 _ x t q s cs H1 Hxt) as (w2 & r' & E2 & _ & H2 & _ & Hh & _);
    [by rewrite lookup_insert_ne|by rewrite lookup_insert|done|done|].
  assert (on_exn (storage_move_assign x t) (storage_dtor t) w1 = Ok tt w2) as E2' by (unfold on_exn; by rewrite E2).
  erewrite bind_ok in E by exact E2'.
  destruct (dtor_eq w2 _ t (moved_raw q) H2) as (w3 & E3 & _ & H3); [by rewrite lookup_insert|].
  erewrite bind_ok in E by exact E3. injection E as _ <-.
  rewrite delete_insert_delete, delete_insert_ne, delete_insert in H3 by done.
  eapply released; [exact H1|exact Ht|exact Hs|exact Hb|exact H3|exact Hh].
Qed.
End stable.
