(** Properties C57, C58 and C66: function_ref. *)
From stdpp Require Import prelude gmap.
From Verif Require Import Cpp FunctionRefModel FunctionRefSpec FunctionRefProofs.
Local Open Scope nat_scope.

Section props.
Context `{C : FRefCfg}.

(** ** C57 *)
(** every history inside the contract runs to its end with the results of the same history on
    the callables themselves *)
Theorem C57_function_ref_is_callable os rs s :
  srun os init_state = Some (rs, s) → ∃ w, frrun os init_world = Finished rs w ∧ shows w s.
Proof. intros H. apply frrun_rep in H. rewrite rep_init in H. exists (rep s). split; [done|apply rep_shows]. Qed.
(** one more call *)
Theorem C57_function_ref_call w s o :
  reachable w s →
  match sstep o s with
  | Bad => True
  | Done r s' => ∃ w', frexec o w = Ok r w' ∧ shows w' s'
  | Throws e s' => ∃ w', frexec o w = Exn e w' ∧ shows w' s'
  end.
Proof.
  intros H. apply reachable_rep in H as ->. pose proof (frexec_rep o s) as Ho.
  destruct (sstep o s) as [|r s'|e s']; [done| |]; exists (rep s'); (split; [done|apply rep_shows]).
Qed.
(** a call of a function_ref is one call of the referenced function with the given argument,
    and returns or throws what that does *)
Theorem C57_calls_function w s x g n v :
  reachable w s → s_refs s !! x = Some (SRef g (CFun n)) → g_ref g = false → g_noexcept g = false →
  let w' := World (objs w) (refs w) (log w ++ [(TFun n, false, v)]) in
  match fun_body n v with
  | Some (AVal u) => fr_call x v w = Ok (RVal u) w'
  | Some (ARef b) => ∀ o, objs w !! b = Some o → fr_call x v w = Ok (RVal (ob_state o)) w'
  | None => fr_call x v w = Exn ElementThrow w'
  end.
Proof.
  intros H Hx Hg Hn. apply reachable_rep in H as ->. cbn zeta.
  assert (Hs : scall s (s_callee (SRef g (CFun n))) v = Some (fun_body n v, State (s_objs s) (s_refs s) (s_log s ++ [(TFun n, false, v)]))) by done.
  pose proof (call_run _ _ _ _ _ _ Hx Hg Hs) as Hc. destruct (fun_body n v) as [[u|b]|].
  - by apply Hc.
  - intros o Ho. apply Hc. cbn [svalue s_objs]. unfold rep in Ho. cbn [objs] in Ho. rewrite lookup_fmap in Ho.
    destruct (s_objs s !! b) as [[[c k] u]|]; [|done]. by injection Ho as <-.
  - rewrite Hc. cbn [s_sig]. by rewrite Hn.
Qed.
(** the same for a functor: its state at the time of the call is used and updated *)
Theorem C57_calls_functor w s x g a c k v o :
  reachable w s → s_refs s !! x = Some (SRef g (CObj a c k)) → g_ref g = false → g_noexcept g = false →
  objs w !! a = Some o → ob_class o = c → (ob_const o = true → k = true) →
  let mutable := negb k && has_mut c in
  let answer := if mutable then (mut_body c (ob_state o) v).1 else const_body c (ob_state o) v in
  let state := if mutable then (mut_body c (ob_state o) v).2 else ob_state o in
  ∃ w', (match answer with
         | Some (AVal u) => fr_call x v w = Ok (RVal u) w'
         | Some (ARef b) => ∀ o', objs w' !! b = Some o' → fr_call x v w = Ok (RVal (ob_state o')) w'
         | None => fr_call x v w = Exn ElementThrow w'
         end) ∧
    log w' = log w ++ [(TObj a, negb mutable, v)] ∧ objs w' !! a = Some (Object c (ob_const o) state) ∧
    (∀ b, b ≠ a → objs w' !! b = objs w !! b) ∧ refs w' = refs w.
Proof.
  intros H Hx Hg Hn Ho Hc Hk. apply reachable_rep in H as ->. cbn zeta. unfold rep in Ho. cbn [objs] in Ho. rewrite lookup_fmap in Ho.
  destruct (s_objs s !! a) as [[[c' k'] u]|] eqn:Ea; [|done]. injection Ho as <-. cbn [obj ob_class ob_const ob_state fst snd] in *. subst c'.
  assert (∃ s', scall s (CObj a c k) v = Some (if negb k && has_mut c then (mut_body c u v).1 else const_body c u v, s') ∧
    s_log s' = s_log s ++ [(TObj a, negb (negb k && has_mut c), v)] ∧
    s_objs s' = <[a:=(c, k', if negb k && has_mut c then (mut_body c u v).2 else u)]> (s_objs s) ∧ s_refs s' = s_refs s) as (s' & Hs & Hl & Hm & Hr).
  { cbn [scall]. rewrite Ea, decide_True by done. destruct (decide (k = false ∧ has_mut c = true)) as [[-> Hh]|Hh].
    - rewrite Hh. cbn [negb andb]. destruct (mut_body c u v) as [r u'] eqn:Em. eexists _. split; [reflexivity|done].
    - assert (negb k && has_mut c = false) as -> by (destruct k, (has_mut c); naive_solver).
      eexists _. split; [reflexivity|]. split; [done|]. split; [by rewrite insert_id|done]. }
  exists (rep s'). split.
  - pose proof (call_run _ _ _ _ _ _ Hx Hg Hs) as Hcall. destruct (if negb k && has_mut c then (mut_body c u v).1 else const_body c u v) as [[u'|b]|].
    + by apply Hcall.
    + intros o' Ho'. apply Hcall. cbn [svalue]. unfold rep in Ho'. cbn [objs] in Ho'. rewrite lookup_fmap in Ho'.
      destruct (s_objs s' !! b) as [[[? ?] ?]|]; [|done]. by injection Ho' as <-.
    + rewrite Hcall. cbn [s_sig]. by rewrite Hn.
  - unfold rep. cbn [log objs refs]. split; [done|]. rewrite Hm, Hr, fmap_insert. split; [by rewrite lookup_insert|].
    split; [|done]. intros b Hb. by rewrite lookup_insert_ne.
Qed.
(** copies and assignments: calling the one is calling the other *)
Theorem C57_copies_rebind w x y w' v :
  (fr_copy x y w = Ok tt w' ∨ fr_assign x y w = Ok tt w') →
  fr_call x v w' = fr_call y v w' ∧ refs w' !! x = refs w !! y ∧ (∀ z, z ≠ x → refs w' !! z = refs w !! z) ∧ objs w' = objs w ∧ log w' = log w.
Proof.
  intros H. assert (∃ r, refs w !! y = Some r ∧ w' = World (objs w) (<[x:=r]> (refs w)) (log w)) as (r & Hy & ->).
  { destruct H as [H|H]; unfold fr_copy, fr_assign, noexcept, bind, get_ref in H.
    - destruct (refs w !! y) as [r|]; [|done]. exists r. cbn in H. by injection H as <-.
    - destruct (refs w !! x) as [t|]; [|done]. destruct (refs w !! y) as [r|]; [|done]. exists r. case_decide; [|done]. cbn in H. by injection H as <-. }
  cbn [refs objs log]. rewrite lookup_insert. split; [|split; [done|split; [|done]]].
  - assert (Hyx : <[x:=r]> (refs w) !! y = Some r) by (destruct (decide (x = y)) as [<-|]; [by rewrite lookup_insert|by rewrite lookup_insert_ne]).
    unfold fr_call, bind, get_ref. cbn [refs]. by rewrite lookup_insert, Hyx.
  - intros z Hz. by rewrite lookup_insert_ne.
Qed.

(** ** C58 *)
(** through a const signature a functor is called as const and not modified, provided it was
    given as const or has only a const operator(). Missing: functors given as non-const that
    also have a non-const operator(), for which the claim is false, see below *)
Theorem C58_const_signature_partial w s x g a c k v r w' :
  reachable w s → s_refs s !! x = Some (SRef g (CObj a c k)) → g_const g = true → g_ref g = false →
  k = true ∨ has_mut c = false →
  fr_call x v w = r → (∃ u, r = Ok u w') ∨ (∃ e, r = Exn e w') →
  objs w' = objs w ∧ log w' = log w ++ [(TObj a, true, v)].
Proof.
  intros H Hx Hgc Hg Hk Hr Hend. apply reachable_rep in H as ->.
  assert (Hcall : fr_call x v (rep s) = (if g_noexcept g then noexcept else id)
    (run_functor g (DObj c k) (if k then SCPtr a else SPtr (TObj a)) v) (rep s))
    by (unfold fr_call, bind; by rewrite (get_ref_run _ _ _ Hx)).
  rewrite Hcall in Hr. clear Hcall.
  assert (Hst : ∀ r0, st_call_obj (if k then SCPtr a else SPtr (TObj a)) c k v (rep s) = r0 →
    match r0 with
    | Ok _ w0 | Exn _ w0 => w0 = World (objs (rep s)) (refs (rep s)) (log (rep s) ++ [(TObj a, true, v)])
    | _ => True
    end).
  { intros r0 Hr0. assert (call_obj c k a v (rep s) = r0) as Hr1 by (destruct k; exact Hr0). clear Hr0. unfold call_obj, bind, get_obj in Hr1.
    destruct (objs (rep s) !! a) as [o|]; [|by subst r0]. destruct (negb (ob_class o =? c)); [by subst r0|].
    destruct (ob_const o && negb k); [by subst r0|].
    assert (k || negb (has_mut c) = true) as Hk' by (destruct Hk as [-> | ->]; [done|by rewrite orb_true_r]). rewrite Hk' in Hr1. cbn in Hr1.
    subst r0. by destruct (const_body c (ob_state o) v). }
  assert (Hinv : ∀ r0, (v0 <- invoke_r (st_call_obj (if k then SCPtr a else SPtr (TObj a)) c k v) ;; ret (if g_ref g then RDangling else RVal v0)) (rep s) = r0 →
    match r0 with
    | Ok _ w0 | Exn _ w0 => w0 = World (objs (rep s)) (refs (rep s)) (log (rep s) ++ [(TObj a, true, v)])
    | _ => True
    end).
  { intros r0. unfold invoke_r, bind. specialize (Hst _ eq_refl). intros <-.
    destruct (st_call_obj _ c k v (rep s)) as [ans w0|e w0|f|]; try done.
    destruct ans as [u|b]; [by cbn|]. unfold get_obj. destruct (objs w0 !! b); by cbn. }
  unfold run_functor in Hr. specialize (Hinv _ eq_refl).
  set (m := (v0 <- invoke_r (st_call_obj (if k then SCPtr a else SPtr (TObj a)) c k v) ;; ret (if g_ref g then RDangling else RVal v0))) in *.
  destruct (g_noexcept g); unfold noexcept, id in Hr; destruct (m (rep s)) as [ans w0|e w0|f|]; subst r;
    destruct Hend as [[u Hu]|[e' Hu]]; try done; injection Hu as <-; subst; done.
Qed.
(** otherwise the non-const operator() is called, whatever the signature says *)
Theorem C58_mutable_functor_behaviour w s x g a c v o :
  reachable w s → s_refs s !! x = Some (SRef g (CObj a c false)) → has_mut c = true → g_ref g = false → g_noexcept g = false →
  objs w !! a = Some o → ob_class o = c → ob_const o = false →
  ∃ w', (fr_call x v w = Stuck DeadObject ∨ (∃ u, fr_call x v w = Ok u w') ∨ fr_call x v w = Exn ElementThrow w') ∧
    log w' = log w ++ [(TObj a, false, v)] ∧ objs w' !! a = Some (Object c false (mut_body c (ob_state o) v).2).
Proof.
  intros H Hx Hm Hg Hn Ho Hc Hk.
  destruct (C57_calls_functor w s x g a c false v o H Hx Hg Hn Ho Hc) as (w' & Hcall & Hlog & Hobj & Hrest & Hrefs); [by rewrite Hk|].
  rewrite Hm in Hcall, Hlog, Hobj. cbn [negb andb] in *. exists w'. rewrite Hk in Hobj. split; [|done].
  destruct (mut_body c (ob_state o) v).1 as [[u|b]|] eqn:Ea.
  - right. left. by eexists.
  - destruct (objs w' !! b) as [o'|] eqn:Eb; [right; left; eexists; by apply Hcall|].
    left. apply reachable_rep in H as ->. unfold fr_call, bind. rewrite (get_ref_run _ _ _ Hx). cbn [cell f_sig s_sig f_storage f_dispatch s_callee stored dispatcher].
    unfold run_functor. rewrite Hn. unfold id, invoke_r, bind. cbn [st_call_obj]. unfold call_obj, bind. unfold get_obj at 1. rewrite Ho.
    rewrite Hc, Nat.eqb_refl, Hk. cbn [negb andb orb]. rewrite Hm. cbn [negb]. unfold record. cbn [objs refs log].
    destruct (mut_body c (ob_state o) v) as [ans st] eqn:Em. cbn [fst snd] in *. subst ans. unfold put_obj, or_throw, ret. cbn [objs refs log].
    unfold get_obj. cbn [objs]. destruct (decide (b = a)) as [->|Hb]; [by rewrite Hobj in Eb|].
    rewrite lookup_insert_ne by done. rewrite Hrest in Eb by done. by rewrite Eb.
  - right. right. done.
Qed.

(** ** C66 *)
(** a const-reference result never is the reference the callable returned: it refers to a copy
    that is gone when the call returns *)
Theorem C66_reference_result_behaviour w s x g n v b o :
  reachable w s → s_refs s !! x = Some (SRef g (CFun n)) → g_ref g = true → fun_body n v = Some (ARef b) → objs w !! b = Some o →
  ∃ w', fr_call x v w = Ok RDangling w' ∧ objs w' = objs w.
Proof.
  intros H Hx Hg Hb Ho. apply reachable_rep in H as ->. unfold fr_call, bind. rewrite (get_ref_run _ _ _ Hx).
  cbn [cell f_sig s_sig f_storage f_dispatch s_callee stored dispatcher]. unfold run_functor. rewrite Hg.
  set (m := (v0 <- invoke_r (st_call_fun (SPtr (TFun n)) v) ;; ret RDangling)).
  assert (Hm : m (rep s) = Ok RDangling (World (objs (rep s)) (refs (rep s)) (log (rep s) ++ [(TFun n, false, v)]))).
  { unfold m, invoke_r, bind. cbn [st_call_fun]. unfold call_fun, bind, record. rewrite Hb. cbn [or_throw ret]. unfold ret, get_obj. cbn [objs]. by rewrite Ho. }
  exists (World (objs (rep s)) (refs (rep s)) (log (rep s) ++ [(TFun n, false, v)])). split; [|reflexivity].
  destruct (g_noexcept g); unfold noexcept, id; by rewrite Hm.
Qed.
End props.

(** ** Examples. States, arguments and results are natural numbers.
    function 0: the successor; function 1: throws for 0; function 2: a reference to object 2.
    class 0 counts its calls, its const operator() returns the count; class 1 has only a const
    operator(); class 2 has a noexcept const operator() and a non-const one that throws *)
Definition fcfg : FRefCfg :=
  {| V := nat; A := nat;
     fun_body := λ n x, match n with 0 => Some (AVal (S x)) | 1 => if x =? 0 then None else Some (AVal x) | _ => Some (ARef 2) end;
     const_body := λ c s x, Some (AVal (s + x));
     mut_body := λ c s x, match c with 0 => (Some (AVal (s + x + 50)), S s) | _ => (None, S s) end;
     has_const := λ _, true; has_mut := λ c, negb (c =? 1);
     nothrow_fun := λ n, n =? 0; nothrow_const := λ c, c =? 2; nothrow_mut := λ _, false |}.
Local Existing Instance fcfg.
Definition num (v : nat) : V := v.
Definition arg (v : nat) : A := v.
Definition plain := Sig false false false.
Definition csig := Sig true false false.
Definition cnsig := Sig true true false.
Definition refsig := Sig false false true.
Example fcfg_ok : cfg_ok.
Proof. split; [intros [|[|n]] x; cbn; try done; by eexists|intros c s x _; by eexists|done]. Qed.
Definition script : list frop :=
  [FNewObj 1 0 false (num 0); FNewObj 2 1 false (num 7); FNewObj 3 0 true (num 3);
   FBindFun 1 plain 0; FBindFun 2 plain 1; FBindObj 3 plain false 1; FBindObj 4 plain true 1; FBindObj 5 plain false 3; FBindObj 6 csig false 2;
   FCall 1 (arg 4); FCall 2 (arg 0); FCall 2 (arg 9); FCall 3 (arg 1); FCall 3 (arg 1); FReadObj 1; FCall 4 (arg 1); FCall 5 (arg 1); FCall 6 (arg 1);
   FCopy 7 3; FSetObj 1 (num 20); FCall 7 (arg 0); FAssign 7 1; FCall 7 (arg 0); FAssignFun 7 1; FCall 7 (arg 8); FDel 7;
   FBindFun 8 plain 2; FCall 8 (arg 0)].
Definition bres (v : nat) : frobs := BResult (RVal (num v)).
Example C57_function_ref_is_callable_case :
  fst <$> srun script init_state = Some (repeat BUnit 9 ++
    [bres 5; BThrew ElementThrow; bres 9; bres 51; bres 52; BVal (num 2); bres 3; bres 4; bres 8;
     BUnit; BUnit; bres 70; BUnit; bres 1; BUnit; bres 8; BUnit; BUnit; bres 7]).
Proof. by vm_compute. Qed.
Lemma script_reachable (f : state → bool) os :
  f ∘ snd <$> srun os init_state = Some true → ∃ w s, reachable w s ∧ f s = true.
Proof.
  intros H. destruct (srun os init_state) as [[rs s]|] eqn:E; [|done]. injection H as H.
  destruct (C57_function_ref_is_callable _ _ _ E) as (w & Hw & _). exists w, s. split; [by exists os, rs|done].
Qed.
Definition bound_to (s : state) (x : nat) (t : callee) : bool :=
  match s_refs s !! x, t with
  | Some (SRef _ (CFun n)), CFun m => n =? m
  | Some (SRef _ (CObj a c k)), CObj a' c' k' => (a =? a') && (c =? c') && Bool.eqb k k'
  | _, _ => false
  end.
(** reachable states for the theorems above *)
Example C57_reachable_case : ∃ w s, reachable w s ∧
  bound_to s 1 (CFun 0) && bound_to s 3 (CObj 1 0 false) && bound_to s 4 (CObj 1 0 true) && bound_to s 6 (CObj 2 1 false) = true.
Proof. apply (script_reachable (λ s, _) script). by vm_compute. Qed.
(** the calls received by object 1, with their overload *)
Example C57_calls_case :
  (λ p, List.filter (λ e : target * bool * A, match e.1.1 with TObj 1 => true | _ => false end) (s_log p.2)) <$> srun script init_state =
    Some [(TObj 1, false, arg 1); (TObj 1, false, arg 1); (TObj 1, true, arg 1); (TObj 1, false, arg 0)].
Proof. by vm_compute. Qed.

(** C58 is false: a const signature calls the non-const operator(), which modifies the functor *)
Theorem C58_const_signature_refuted :
  ¬ (∀ w s x g a c k v w' u, reachable w s → s_refs s !! x = Some (SRef g (CObj a c k)) → g_const g = true →
       fr_call x v w = Ok u w' → objs w' !! a = objs w !! a).
Proof.
  intros H.
  destruct (script_reachable (λ s, match s_refs s !! 1, s_objs s !! 1 with
      | Some (SRef (Sig true false false) (CObj 1 0 false)), Some (0, false, v) => (v : nat) =? 5 | _, _ => false end)
    [FNewObj 1 0 false (num 5); FBindObj 1 csig false 1]) as (w & s & Hr & Hs); [by vm_compute|].
  destruct (s_refs s !! 1) as [[[[] [] []] [n|[|[|a]] [|c] []]]|] eqn:Ex; try done.
  destruct (s_objs s !! 1) as [[[[|c] []] v]|] eqn:Eo; try done. apply Nat.eqb_eq in Hs.
  assert (Ho : objs w !! 1 = Some (Object 0 false v)) by (rewrite (reachable_rep _ _ Hr); unfold rep; cbn [objs]; rewrite lookup_fmap; exact (f_equal (fmap obj) Eo)).
  destruct (C57_calls_functor w s 1 _ 1 0 false (arg 0) _ Hr Ex eq_refl eq_refl Ho eq_refl) as (w' & Hc & _ & Ho' & _); [done|].
  cbn in Hc. specialize (H w s 1 _ 1 0 false (arg 0) w' _ Hr Ex eq_refl Hc). rewrite H, Ho in Ho'. cbn in Ho'. injection Ho' as Ho'.
  by apply Nat.neq_succ_diag_r in Ho'.
Qed.
(** and a const noexcept signature, which is accepted because the const operator() is noexcept,
    terminates the program when the non-const one throws *)
Theorem C58_const_noexcept_refuted :
  ∃ os : list frop, fst <$> srun os init_state = Some [BUnit; BUnit] ∧ nothrow_const 2 = true ∧
    frrun (os ++ [FCall 1 (arg 0)]) init_world = Aborted.
Proof. exists [FNewObj 1 2 false (num 5); FBindObj 1 cnsig false 1]. by vm_compute. Qed.
(** C66 is false: the reference returned by function 2 is lost *)
Theorem C66_reference_result_refuted :
  ∃ os : list frop, fst <$> srun os init_state = Some [BUnit; BUnit] ∧ fun_body 2 (arg 0) = Some (ARef 2) ∧
    match frrun (os ++ [FCall 1 (arg 0)]) init_world with Finished [_; _; BResult RDangling] _ => True | _ => False end.
Proof. exists [FNewObj 2 1 false (num 5); FBindFun 1 refsig 2]. by vm_compute. Qed.

Print Assumptions C57_function_ref_is_callable.
Print Assumptions C57_function_ref_call.
Print Assumptions C57_calls_function.
Print Assumptions C57_calls_functor.
Print Assumptions C57_copies_rebind.
Print Assumptions C58_const_signature_partial.
Print Assumptions C58_mutable_functor_behaviour.
Print Assumptions C58_const_signature_refuted.
Print Assumptions C58_const_noexcept_refuted.
Print Assumptions C66_reference_result_behaviour.
Print Assumptions C66_reference_result_refuted.
