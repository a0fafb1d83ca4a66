(** Every call on function_refs does what it does on the callables themselves. *)
From stdpp Require Import prelude gmap.
From Verif Require Import Cpp FunctionRefModel FunctionRefSpec.
Local Open Scope nat_scope.

Section proofs.
Context `{C : FRefCfg}.

(** ** Representation *)
Definition obj (p : nat * bool * V) : object := Object p.1.1 p.1.2 p.2.
Definition stored (t : callee) : storage := match t with CFun n => SPtr (TFun n) | CObj a c k => if k then SCPtr a else SPtr (TObj a) end.
Definition dispatcher (t : callee) : functor := match t with CFun _ => DFun | CObj _ c k => DObj c k end.
Definition cell (r : sref) : fref := FRef (s_sig r) (stored (s_callee r)) (dispatcher (s_callee r)).
Definition rep (s : state) : world := World (obj <$> s_objs s) (cell <$> s_refs s) (s_log s).

Lemma get_ref_run s x r : s_refs s !! x = Some r → get_ref x (rep s) = Ok (cell r) (rep s).
Proof. intros H. unfold get_ref, rep. cbn [refs]. by rewrite lookup_fmap, H. Qed.
Lemma get_obj_run s a p : s_objs s !! a = Some p → get_obj a (rep s) = Ok (obj p) (rep s).
Proof. intros H. unfold get_obj, rep. cbn [objs]. by rewrite lookup_fmap, H. Qed.
Lemma put_ref_run s x r : put_ref x (cell r) (rep s) = Ok tt (rep (set_srefs s (<[x:=r]> (s_refs s)))).
Proof. unfold put_ref, rep, set_srefs. cbn [objs refs log s_objs s_refs s_log]. by rewrite fmap_insert. Qed.
Lemma put_obj_run s a p : put_obj a (obj p) (rep s) = Ok tt (rep (set_sobjs s (<[a:=p]> (s_objs s)))).
Proof. unfold put_obj, rep, set_sobjs. cbn [objs refs log s_objs s_refs s_log]. by rewrite fmap_insert. Qed.
Lemma record_run s t k x : record t k x (rep s) = Ok tt (rep (State (s_objs s) (s_refs s) (s_log s ++ [(t, k, x)]))).
Proof. done. Qed.

Definition of_answer (o : option (answer V)) (s : state) : res world (answer V) :=
  match o with Some r => Ok r (rep s) | None => Exn ElementThrow (rep s) end.
Lemma or_throw_run o s : or_throw o (rep s) = of_answer o s.
Proof. by destruct o. Qed.

(** the function dispatched to calls the callable *)
Lemma dispatch_run s t x o s' : scall s t x = Some (o, s') →
  match dispatcher t with DFun => st_call_fun (stored t) x | DObj c k => st_call_obj (stored t) c k x end (rep s) = of_answer o s'.
Proof.
  destruct t as [n|a c k]; cbn [scall dispatcher stored st_call_fun].
  - intros [= <- <-]. unfold call_fun, bind. by rewrite record_run, or_throw_run.
  - intros H. destruct (s_objs s !! a) as [[[c' k'] v]|] eqn:E; [|done].
    destruct (decide (c = c' ∧ (k' = true → k = true))) as [[-> Hk]|]; [|done].
    assert (Hcall : call_obj c' k a x (rep s) = of_answer o s').
    { unfold call_obj, bind. rewrite (get_obj_run _ _ _ E). cbn [obj ob_class ob_const ob_state fst snd]. rewrite Nat.eqb_refl. cbn [negb].
      assert (k' && negb k = false) as -> by (destruct k', k; naive_solver).
      destruct (decide (k = false ∧ has_mut c' = true)) as [[-> Hm]|Hn].
      - rewrite Hm. cbn [orb negb]. destruct (mut_body c' v x) as [r v'] eqn:Em. injection H as <- <-.
        rewrite record_run. change (Object c' k' v') with (obj (c', k', v')). rewrite put_obj_run, or_throw_run. done.
      - assert (k || negb (has_mut c') = true) as -> by (destruct k, (has_mut c'); naive_solver).
        injection H as <- <-. rewrite record_run, or_throw_run. done. }
    destruct k; cbn [st_call_obj]; exact Hcall.
Qed.
Lemma call_run s x r v o s' : s_refs s !! x = Some r → g_ref (s_sig r) = false → scall s (s_callee r) v = Some (o, s') →
  match o with
  | Some a => ∀ u, svalue s' a = Some u → fr_call x v (rep s) = Ok (RVal u) (rep s')
  | None => fr_call x v (rep s) = if g_noexcept (s_sig r) then Terminated else Exn ElementThrow (rep s')
  end.
Proof.
  intros Hx Hg Hs. assert (Hd := dispatch_run _ _ _ _ _ Hs). 
  assert (Hf : fr_call x v (rep s) = (if g_noexcept (s_sig r) then noexcept else id)
    (run_functor (s_sig r) (dispatcher (s_callee r)) (stored (s_callee r)) v) (rep s))
    by (unfold fr_call, bind; by rewrite (get_ref_run _ _ _ Hx)).
  unfold run_functor in Hf. rewrite Hg in Hf. cbn iota in Hf.
  assert (Hi : ∀ (m : M world (answer V)), m (rep s) = of_answer o s' →
    match o with
    | Some a => ∀ u, svalue s' a = Some u → (v0 <- invoke_r m ;; ret (RVal v0)) (rep s) = Ok (RVal u) (rep s')
    | None => (v0 <- invoke_r m ;; ret (RVal v0)) (rep s) = Exn ElementThrow (rep s')
    end).
  { intros m Hm. destruct o as [a|]; unfold invoke_r, bind; rewrite Hm; cbn [of_answer]; [|done].
    intros u Hu. destruct a as [u'|b]; cbn [svalue] in Hu; [by injection Hu as ->|].
    destruct (s_objs s' !! b) as [[[c k] u']|] eqn:E; [|done]. injection Hu as ->. by rewrite (get_obj_run _ _ _ E). }
  specialize (Hi _ Hd). destruct o as [a|].
  - intros u Hu. specialize (Hi u Hu). destruct (g_noexcept (s_sig r)); unfold noexcept, id in Hf; rewrite Hf; by rewrite Hi.
  - destruct (g_noexcept (s_sig r)); unfold noexcept, id in Hf; rewrite Hf; by rewrite Hi.
Qed.

Lemma frexec_rep o s :
  match sstep o s with
  | Bad => True
  | Done r s' => frexec o (rep s) = Ok r (rep s')
  | Throws e s' => frexec o (rep s) = Exn e (rep s')
  end.
Proof.
  destruct o as [a c k v|a v|a|a|x g n|x g k a|x y|x y|x n|x|x v]; cbn [sstep frexec].
  - destruct (s_objs s !! a) eqn:E; [done|]. change (objs (rep s)) with (obj <$> s_objs s). rewrite lookup_fmap, E.
    cbn [fmap option_fmap option_map]. unfold bind. change (Object c k v) with (obj (c, k, v)). by rewrite put_obj_run.
  - destruct (s_objs s !! a) as [[[c [|]] u]|] eqn:E; try done. unfold bind. rewrite (get_obj_run _ _ _ E).
    cbn [obj ob_const ob_class fst snd]. change (Object c false v) with (obj (c, false, v)). by rewrite put_obj_run.
  - destruct (s_objs s !! a) as [[[c k] u]|] eqn:E; [|done]. unfold bind. by rewrite (get_obj_run _ _ _ E).
  - destruct (s_objs s !! a) as [[[c k] u]|] eqn:E; [|done]. unfold bind. rewrite (get_obj_run _ _ _ E).
    unfold rep, set_sobjs. cbn [objs refs log s_objs s_refs s_log]. by rewrite fmap_delete.
  - destruct (s_refs s !! x) eqn:E; [done|]. cbn [callable]. unfold fr_bind_fun, invocable_fun.
    destruct (negb (g_noexcept g) || nothrow_fun n); [|done]. unfold bind, noexcept.
    change (FRef g (SPtr (TFun n)) DFun) with (cell (SRef g (CFun n))). by rewrite put_ref_run.
  - destruct (s_refs s !! x) eqn:E; [done|]. destruct (s_objs s !! a) as [[[c k'] u]|] eqn:Ea; [|done].
    unfold fr_bind_obj, bind. rewrite (get_obj_run _ _ _ Ea). cbn [obj ob_const ob_class fst snd].
    assert (invocable_obj g c (g_const g || (k || k')) = callable g (qualified g (CObj a c (k || k')))) as ->.
    { cbn [qualified callable]. unfold invocable_obj. destruct (g_const g || (k || k')), (has_mut c); cbn; done. }
    destruct (callable _ _); [|done]. unfold noexcept.
    change (FRef g (if k || k' then SCPtr a else SPtr (TObj a)) (DObj c (k || k'))) with (cell (SRef g (CObj a c (k || k')))).
    by rewrite put_ref_run.
  - destruct (s_refs s !! x) eqn:E; [done|]. destruct (s_refs s !! y) as [r|] eqn:Ey; [|done]. unfold fr_copy, noexcept, bind.
    by rewrite (get_ref_run _ _ _ Ey), put_ref_run.
  - destruct (s_refs s !! x) as [t|] eqn:E; [|done]. destruct (s_refs s !! y) as [r|] eqn:Ey; [|done]. unfold fr_assign, noexcept, bind.
    rewrite (get_ref_run _ _ _ E), (get_ref_run _ _ _ Ey). cbn [cell f_sig]. case_decide; [|done]. by rewrite (put_ref_run s x r).
  - destruct (s_refs s !! x) as [t|] eqn:E; [|done]. cbn [callable]. unfold fr_assign_fun, bind. rewrite (get_ref_run _ _ _ E).
    unfold fr_bind_fun, invocable_fun. cbn [cell f_sig]. destruct (negb (g_noexcept (s_sig t)) || nothrow_fun n); [|done]. unfold noexcept.
    change (FRef (s_sig t) (SPtr (TFun n)) DFun) with (cell (SRef (s_sig t) (CFun n))). by rewrite put_ref_run.
  - destruct (s_refs s !! x) as [t|] eqn:E; [|done]. unfold fr_destroy, bind. rewrite (get_ref_run _ _ _ E).
    unfold ret, rep, set_srefs. cbn [objs refs log s_objs s_refs s_log]. by rewrite fmap_delete.
  - destruct (s_refs s !! x) as [r|] eqn:E; [|done]. destruct (g_ref (s_sig r)) eqn:Hg; [done|].
    destruct (scall s (s_callee r) v) as [[[a|] s']|] eqn:Ec; [| |done].
    + destruct (svalue s' a) as [u|] eqn:Eu; [|done]. unfold bind. by rewrite (call_run _ _ _ _ _ _ E Hg Ec u Eu).
    + pose proof (call_run _ _ _ _ _ _ E Hg Ec) as Hc. cbn in Hc. destruct (g_noexcept (s_sig r)); [done|]. unfold bind. by rewrite Hc.
Qed.
Lemma frrun_rep os : ∀ s rs s', srun os s = Some (rs, s') → frrun os (rep s) = Finished rs (rep s').
Proof.
  induction os as [|o os IH]; intros s rs s' H; cbn [srun frrun] in *; [by injection H as <- <-|].
  pose proof (frexec_rep o s) as Ho. destruct (sstep o s) as [|r s1|e s1]; [done| |].
  - rewrite Ho. destruct (srun os s1) as [[rs1 s2]|] eqn:E; [|done]. injection H as <- <-. by rewrite (IH _ _ _ E).
  - rewrite Ho. destruct (srun os s1) as [[rs1 s2]|] eqn:E; [|done]. injection H as <- <-. by rewrite (IH _ _ _ E).
Qed.
Lemma rep_init : rep init_state = init_world.
Proof. unfold rep, init_world. cbn [s_objs s_refs s_log init_state]. by rewrite !fmap_empty. Qed.
Lemma reachable_rep w s : reachable w s → w = rep s.
Proof. intros (os & rs & Hs & Hr). apply frrun_rep in Hs. rewrite rep_init, Hr in Hs. by injection Hs as ->. Qed.
Lemma rep_shows s : shows (rep s) s.
Proof.
  unfold shows, rep. cbn [objs refs log]. split; [|split; [|done]].
  - intros a. rewrite lookup_fmap. by destruct (s_objs s !! a) as [[[c k] v]|].
  - intros x. rewrite lookup_fmap. by destruct (s_refs s !! x).
Qed.
End proofs.
