(** Property C93: function_ref passes arguments on. *)
From stdpp Require Import prelude gmap.
From Coq Require Import Lia.
From Verif Require Import Cpp FunctionArgs.
Local Open Scope nat_scope.

(** ** Specification *)
Section spec.
Context `{C : ArgsCfg}.
(** an argument of the type of its parameter: a value, or an object of the caller *)
Inductive given := GVal (v : V) | GObj (a : nat).
(** with the objects and the list of copied objects afterwards *)
Inductive step {X : Type} := Done (x : X) (m : gmap nat V) (c : list nat) | Threw (m : gmap nat V) (c : list nat).
Global Arguments step : clear implicits.
Definition then_ {X Y} (r : step X) (k : X → gmap nat V → step Y) : step Y :=
  match r with
  | Done x m c => match k x m with Done y m' c' => Done y m' (c ++ c') | Threw m' c' => Threw m' (c ++ c') end
  | Threw m c => Threw m c
  end.
(** the object of an argument, its constness, and whether it may be moved from *)
Inductive argument := Lvalue (a : nat) (const : bool) | Rvalue (a : nat) (const : bool) | Prvalue (v : V).
Definition to_expr (x : argument) : expr :=
  match x with Lvalue a k => Lv (Caller a) k | Rvalue a k => Xv (Caller a) k | Prvalue v => Pr v end.
Definition copy_obj {X} (m : gmap nat V) (a : nat) (k : V → X) : step X :=
  match m !! a with
  | Some v => if copy_throws v then Threw m [] else Done (k v) m [a]
  | None => Threw m []
  end.
Definition move_obj {X} (m : gmap nat V) (a : nat) (k : V → X) : step X :=
  match m !! a with Some v => Done (k v) (<[a := moved v]> m) [] | None => Threw m [] end.
(** the argument is converted to the type in the signature *)
Definition pass (p : param) (x : argument) (m : gmap nat V) : step given :=
  match p, x with
  | PVal, Lvalue a _ | PVal, Rvalue a true => copy_obj m a GVal
  | PVal, Rvalue a false => move_obj m a GVal
  | PVal, Prvalue v => Done (GVal v) m []
  | _, Lvalue a _ | _, Rvalue a _ => Done (GObj a) m []
  | _, Prvalue _ => Threw m []
  end.
(** the parameter of the callable is initialised with it: rvalues with T and T && *)
Definition receive (p q : param) (g : given) (m : gmap nat V) : step seen :=
  match g with
  | GVal v => Done (inr v) m []
  | GObj a =>
      match q, p with
      | PVal, PRRef => move_obj m a inr
      | PVal, _ => copy_obj m a inr
      | _, _ => Done (inl a) m []
      end
  end.
Fixpoint pass_all (ps : list param) (xs : list argument) (m : gmap nat V) : step (list given) :=
  match ps, xs with
  | p :: ps', x :: xs' => then_ (pass p x m) (λ g m, then_ (pass_all ps' xs' m) (λ gs m, Done (g :: gs) m []))
  | _, _ => Done [] m []
  end.
Fixpoint receive_all (ps qs : list param) (gs : list given) (m : gmap nat V) : step (list seen) :=
  match ps, qs, gs with
  | p :: ps', q :: qs', g :: gs' => then_ (receive p q g m) (λ s m, then_ (receive_all ps' qs' gs' m) (λ ss m, Done (s :: ss) m []))
  | _, _, _ => Done [] m []
  end.
(** which arguments a parameter of the signature accepts *)
Definition accepts (p : param) (x : argument) : bool :=
  match p, x with
  | PVal, _ | PRef, Lvalue _ false | PCRef, Lvalue _ _ | PCRef, Rvalue _ _ | PRRef, Rvalue _ false => true
  | _, _ => false
  end.
(** the callable can be called with arguments of the signature's types *)
Definition invocable (p q : param) : bool :=
  match p, q with
  | (PVal | PRRef), (PVal | PCRef | PRRef) | PRef, (PVal | PRef | PCRef) | PCRef, (PVal | PCRef) => true
  | _, _ => false
  end.
Definition object_of (x : argument) : option nat := match x with Lvalue a _ | Rvalue a _ => Some a | Prvalue _ => None end.
Definition exists_in (m : gmap nat V) (x : argument) : Prop := ∀ a, object_of x = Some a → is_Some (m !! a).

(** a parameter of the signature, the one of the callable, and the argument *)
Definition triple : Type := param * param * argument.
Definition sig_of (ts : list triple) : list param := (λ t, t.1.1) <$> ts.
Definition call_of (ts : list triple) : list param := (λ t, t.1.2) <$> ts.
Definition args_of (ts : list triple) : list argument := snd <$> ts.
Definition objects (ts : list triple) : list nat := omap object_of (args_of ts).
Definition is_ref (p : param) : bool := match p with PVal => false | _ => true end.
(** references all the way give the caller's object, everything else the value of the argument *)
Definition sees (m : gmap nat V) (t : triple) (s : seen) : Prop :=
  let '(p, q, x) := t in
  if is_ref p && is_ref q then ∃ a, object_of x = Some a ∧ s = inl a
  else ∃ v, s = inr v ∧ (x = Prvalue v ∨ ∃ a, object_of x = Some a ∧ m !! a = Some v).
(** arguments by value are copied at the call unless they are rvalues, others if the callable
    takes a value *)
Definition copied_at_call (t : triple) : option nat :=
  match t with
  | (PVal, _, Lvalue a _) | (PVal, _, Rvalue a true) => Some a
  | _ => None
  end.
Definition copied_for_callable (t : triple) : option nat :=
  match t with
  | (PRef, PVal, x) | (PCRef, PVal, x) => object_of x
  | _ => None
  end.
(** only rvalues are moved from, and only if there is a parameter by value *)
Definition moved_from (t : triple) : option nat :=
  match t with
  | (PVal, _, Rvalue a false) | (PRRef, PVal, Rvalue a false) => Some a
  | _ => None
  end.
End spec.

Section proofs.
Context `{C : ArgsCfg}.

(** ** Functions *)
Definition cut (n : nat) (s : st) : st := St (objs s) (take n (stack s)) (copied s).
Definition height (s : st) : nat := length (stack s).
Fixpoint init_all (ps : list param) (es : list expr) : M st (list loc) :=
  match ps, es with
  | [], [] => ret []
  | p :: ps', e :: es' => l <- init p e ;; ls <- init_all ps' es' ;; ret (l :: ls)
  | _, _ => stuck WrongType
  end.
Definition values (ps : list param) : nat := length (List.filter by_value ps).
Lemma init_height p e s : match init p e s with Ok _ s' => height s' = height s + (if by_value p then 1 else 0) | Exn _ s' => height s' = height s | _ => True end.
Proof.
  assert (Hc : ∀ l, match copy_from l s with Ok _ s' => height s' = height s + 1 | Exn _ s' => height s' = height s | _ => True end).
  { intros l. unfold copy_from, read, bind. destruct (lookup_loc l s) as [v|]; [|done]. destruct (copy_throws v); [done|]. cbn. unfold height. cbn. by rewrite app_length. }
  assert (Hm : ∀ l, match move_from l s with Ok _ s' => height s' = height s + 1 | Exn _ s' => height s' = height s | _ => True end).
  { intros l. unfold move_from, read, bind. destruct (lookup_loc l s) as [v|]; [|done]. destruct (move_throws v); [done|].
    destruct l; cbn; unfold height; cbn; rewrite app_length, ?insert_length; done. }
  destruct p, e as [l []|l []|v]; cbn [init by_value]; try done; try apply Hc; try apply Hm; cbn; unfold height; cbn; rewrite ?app_length; cbn; lia.
Qed.
Lemma init_all_height ps : ∀ es s, match init_all ps es s with Ok _ s' => height s' = height s + values ps | Exn _ s' => height s ≤ height s' | _ => True end.
Proof.
  induction ps as [|p ps IH]; intros [|e es] s; try done; cbn [init_all]; [unfold values; cbn; lia|].
  unfold bind at 1. pose proof (init_height p e s) as H. destruct (init p e s) as [l s1|x s1| |]; [|lia|done..].
  unfold bind. specialize (IH es s1). unfold values in *. cbn [List.filter]. destruct (init_all ps es s1) as [ls s2|x s2| |]; [|destruct (by_value p); lia|done..].
  cbn. destruct (by_value p); cbn [length]; lia.
Qed.
Lemma cut_height n s : n ≤ height s → height (cut n s) = n.
Proof. intros H. unfold cut, height in *. cbn. rewrite take_length. lia. Qed.
Lemma cut_cut n k s : n ≤ k → cut n (cut k s) = cut n s.
Proof. intros H. unfold cut. cbn. rewrite take_take. do 2 f_equal. lia. Qed.
Lemma pop_cut n s : height s = n + 1 → pop s = Ok tt (cut n s).
Proof.
  intros H. unfold pop, cut, height in *. destruct (stack s) as [|v k] eqn:E; [cbn in H; lia|]. do 3 f_equal. lia.
Qed.
(** bodies leave the stack as high as they found it *)
Definition keeps {R} (m : M st R) : Prop := ∀ s, match m s with Ok _ s' | Exn _ s' => height s' = height s | _ => True end.
Lemma func_spec {R} ps : ∀ es (body : list loc → M st R) s, (∀ ls, keeps (body ls)) →
  func ps es body s =
    match init_all ps es s with
    | Ok ls s1 =>
        match body ls s1 with
        | Ok r s2 => Ok r (cut (height s) s2)
        | Exn x s2 => Exn x (cut (height s) s2)
        | Stuck f => Stuck f
        | Terminated => Terminated
        end
    | Exn x s1 => Exn x (cut (height s) s1)
    | Stuck f => Stuck f
    | Terminated => Terminated
    end.
Proof.
  assert (Hcut : ∀ s, cut (height s) s = s) by (intros []; unfold cut, height; cbn; by rewrite firstn_all).
  induction ps as [|p ps IH]; intros [|e es] body s Hk; try done.
  - cbn [func init_all ret]. unfold ret. specialize (Hk [] s). destruct (body [] s) as [r s2|x s2| |] eqn:E; try done; by rewrite <-Hk, Hcut.
  - cbn [func init_all]. unfold bind at 1. pose proof (init_height p e s) as Hi. unfold bind at 3. destruct (init p e s) as [l s1|x s1| |]; [|by rewrite <-Hi, Hcut|done..].
    unfold bind at 1, on_exn. rewrite IH by (intros ls; apply Hk).
    pose proof (init_all_height ps es s1) as Ha. unfold bind at 2. 
    destruct (init_all ps es s1) as [ls s2|x s2| |] eqn:E2; [|destruct (by_value p) eqn:Ep|done..].
    + cbn. specialize (Hk (l :: ls) s2). destruct (body (l :: ls) s2) as [r s3|x s3| |] eqn:E3; try done;
        (destruct (by_value p) eqn:Ep; [|rewrite ?Nat.add_0_r in Hi; cbn; by rewrite Hi]);
        unfold bind; rewrite (pop_cut (height s)) by (rewrite cut_height; lia); cbn; rewrite cut_cut by lia; done.
    + rewrite (pop_cut (height s)) by (rewrite cut_height; lia). cbn. by rewrite cut_cut by lia.
    + cbn. rewrite Nat.add_0_r in Hi. by rewrite Hi.
Qed.
Lemma func_keeps {R} ps es (body : list loc → M st R) : (∀ ls, keeps (body ls)) → keeps (func ps es body).
Proof.
  intros Hk s. rewrite func_spec by done. pose proof (init_all_height ps es s) as Ha.
  destruct (init_all ps es s) as [ls s1|x s1| |]; [|unfold cut, height in *; cbn; rewrite take_length; lia|done..].
  specialize (Hk ls s1). destruct (body ls s1) as [r s2|x s2| |]; try done; unfold cut, height in *; cbn; rewrite take_length; lia.
Qed.

(** ** The three initialisations *)
Fixpoint vals (gs : list given) : list V :=
  match gs with [] => [] | GVal v :: gs' => v :: vals gs' | GObj _ :: gs' => vals gs' end.
(** where the parameters are if the first value is at [n] *)
Fixpoint locs (n : nat) (gs : list given) : list loc :=
  match gs with [] => [] | GVal _ :: gs' => Param n :: locs (S n) gs' | GObj a :: gs' => Caller a :: locs n gs' end.
Definition fits (m : gmap nat V) (p : param) (g : given) : Prop :=
  match g with GVal _ => p = PVal | GObj a => p ≠ PVal ∧ is_Some (m !! a) end.
Lemma fits_weaken (m m' : gmap nat V) ps gs : (∀ a, is_Some (m !! a) → is_Some (m' !! a)) → Forall2 (fits m) ps gs → Forall2 (fits m') ps gs.
Proof. intros H. induction 1 as [|p g ps gs Hg HF IH]; constructor; [|done]. destruct g; [done|]. destruct Hg; split; auto. Qed.
Lemma insert_exists (m : gmap nat V) b w a : is_Some (m !! a) → is_Some (<[b := w]> m !! a).
Proof. intros H. destruct (decide (b = a)) as [->|]; [by rewrite lookup_insert; eauto|by rewrite lookup_insert_ne]. Qed.

Context (Hmove : ∀ v, move_throws v = false).

Lemma copy_step m k c a v : m !! a = Some v →
  copy_from (Caller a) (St m k c) =
    if copy_throws v then Exn ElementThrow (St m k c) else Ok (Param (length k)) (St m (k ++ [v]) (c ++ [Caller a])).
Proof. intros E. unfold copy_from, read, bind, lookup_loc. cbn. rewrite E. by destruct (copy_throws v). Qed.
Lemma move_step m k c a v : m !! a = Some v →
  move_from (Caller a) (St m k c) = Ok (Param (length k)) (St (<[a := moved v]> m) (k ++ [v]) c).
Proof. intros E. unfold move_from, read, bind, lookup_loc. cbn. rewrite E, Hmove. done. Qed.
Lemma move_param m k1 v k2 c :
  move_from (Param (length k1)) (St m (k1 ++ v :: k2) c) = Ok (Param (length (k1 ++ v :: k2))) (St m (k1 ++ moved v :: k2 ++ [v]) c).
Proof.
  unfold move_from, read, bind, lookup_loc. cbn. rewrite list_lookup_middle by done. rewrite Hmove. cbn.
  unfold push. cbn. rewrite insert_length.
  rewrite insert_app_r_alt by lia. rewrite Nat.sub_diag. cbn. by rewrite <-app_assoc.
Qed.

Lemma pass_init p x m k c : accepts p x = true → exists_in m x →
  match pass p x m with
  | Done g m' c' =>
      init p (to_expr x) (St m k c) = Ok (match g with GVal _ => Param (length k) | GObj a => Caller a end) (St m' (k ++ vals [g]) (c ++ (Caller <$> c')))
      ∧ fits m' p g ∧ ∀ a, is_Some (m !! a) → is_Some (m' !! a)
  | Threw m' c' => init p (to_expr x) (St m k c) = Exn ElementThrow (St m' k (c ++ (Caller <$> c')))
  end.
Proof.
  intros Ha Hx.
  assert (HC : ∀ a, is_Some (m !! a) → match copy_obj m a GVal with
    | Done g m' c' => copy_from (Caller a) (St m k c) = Ok (match g with GVal _ => Param (length k) | GObj a => Caller a end) (St m' (k ++ vals [g]) (c ++ (Caller <$> c')))
      ∧ fits m' PVal g ∧ ∀ a, is_Some (m !! a) → is_Some (m' !! a)
    | Threw m' c' => copy_from (Caller a) (St m k c) = Exn ElementThrow (St m' k (c ++ (Caller <$> c'))) end).
  { intros a [v Ev]. rewrite (copy_step _ _ _ _ _ Ev). unfold copy_obj. rewrite Ev. destruct (copy_throws v); [by cbn; rewrite app_nil_r|]. done. }
  assert (HM : ∀ a, is_Some (m !! a) → match move_obj m a GVal with
    | Done g m' c' => move_from (Caller a) (St m k c) = Ok (match g with GVal _ => Param (length k) | GObj a => Caller a end) (St m' (k ++ vals [g]) (c ++ (Caller <$> c')))
      ∧ fits m' PVal g ∧ ∀ a, is_Some (m !! a) → is_Some (m' !! a)
    | Threw m' c' => move_from (Caller a) (St m k c) = Exn ElementThrow (St m' k (c ++ (Caller <$> c'))) end).
  { intros a [v Ev]. rewrite (move_step _ _ _ _ _ Ev). unfold move_obj. rewrite Ev. cbn. rewrite app_nil_r.
    split_and!; [done|done|]. intros b. apply insert_exists. }
  destruct p, x as [a []|a []|v]; try done; cbn [to_expr pass init]; try (apply HC, Hx; done); try (apply HM, Hx; done);
    cbn; rewrite ?app_nil_r; split_and!; try done; by apply Hx.
Qed.

Lemma pass_all_init ps : ∀ xs m k c, Forall2 (λ p x, accepts p x = true) ps xs → Forall (exists_in m) xs →
  match pass_all ps xs m with
  | Done gs m' c' =>
      init_all ps (to_expr <$> xs) (St m k c) = Ok (locs (length k) gs) (St m' (k ++ vals gs) (c ++ (Caller <$> c')))
      ∧ Forall2 (fits m') ps gs ∧ ∀ a, is_Some (m !! a) → is_Some (m' !! a)
  | Threw m' c' => ∃ k', init_all ps (to_expr <$> xs) (St m k c) = Exn ElementThrow (St m' (k ++ k') (c ++ (Caller <$> c')))
  end.
Proof.
  induction ps as [|p ps IH]; intros [|x xs] m k c HF HE; try by inversion HF.
  { cbn. unfold ret. rewrite !app_nil_r. split_and!; by constructor || done. }
  apply Forall2_cons in HF as [Hp HF]. apply Forall_cons in HE as [Hx HE].
  rewrite fmap_cons. cbn [pass_all init_all]. pose proof (pass_init p x m k c Hp Hx) as H1. unfold bind.
  destruct (pass p x m) as [g m1 c1|m1 c1]; cbn [then_].
  - destruct H1 as (Hi & Hg & Hm). specialize (IH xs m1 (k ++ vals [g]) (c ++ (Caller <$> c1)) HF).
    assert (HE1 : Forall (exists_in m1) xs) by (eapply Forall_impl; [exact HE|]; intros y Hy a Ea; by apply Hm, Hy).
    specialize (IH HE1). destruct (pass_all ps xs m1) as [gs m2 c2|m2 c2]; cbn [then_].
    + destruct IH as (IH & Hgs & Hm2). rewrite Hi, IH. unfold ret. rewrite app_nil_r, fmap_app, <-!app_assoc. split_and!.
      * destruct g; cbn; rewrite ?app_nil_r, ?app_length; [|done]. cbn. by rewrite Nat.add_1_r.
      * constructor; [|done]. destruct g; [done|]. destruct Hg; split; auto.
      * auto.
    + destruct IH as [k' IH]. exists (vals [g] ++ k'). rewrite Hi, IH. by rewrite fmap_app, <-!app_assoc.
  - exists []. rewrite H1. by rewrite app_nil_r.
Qed.

(** the second initialisation moves the values on *)
Lemma forward_init ps : ∀ gs m k1 w c, Forall2 (fits m) ps gs →
  init_all ps (forward_all ps (locs (length k1) gs)) (St m (k1 ++ vals gs ++ w) c) =
    Ok (locs (length (k1 ++ vals gs ++ w)) gs) (St m (k1 ++ (moved <$> vals gs) ++ w ++ vals gs) c).
Proof.
  induction ps as [|p ps IH]; intros [|g gs] m k1 w c HF; try by inversion HF.
  { cbn. unfold ret. by rewrite app_nil_r. }
  apply Forall2_cons in HF as [Hg HF]. destruct g as [v|a].
  - cbn in Hg. subst p. cbn [locs forward_all zip_with forward init_all init vals app]. unfold bind at 1.
    rewrite move_param. unfold bind.
    specialize (IH gs m (k1 ++ [moved v]) (w ++ [v]) c HF). unfold forward_all in IH.
    replace (length (k1 ++ [moved v])) with (S (length k1)) in IH by (rewrite app_length; cbn; lia).
    replace (k1 ++ moved v :: (vals gs ++ w) ++ [v]) with ((k1 ++ [moved v]) ++ vals gs ++ w ++ [v]) by (by rewrite <-!app_assoc).
    rewrite IH. unfold ret. cbn [locs fmap list_fmap]. f_equal.
    + do 2 f_equal. rewrite !app_length. cbn. rewrite !app_length. cbn. lia.
    + f_equal. rewrite <-!app_assoc. done.
  - destruct Hg as [Hp [v Ev]]. cbn [locs forward_all zip_with init_all vals]. unfold bind at 1.
    assert (init p (forward p (Caller a)) (St m (k1 ++ vals gs ++ w) c) = Ok (Caller a) (St m (k1 ++ vals gs ++ w) c)) as -> by (by destruct p).
    unfold bind. specialize (IH gs m k1 w c HF). unfold forward_all in IH. rewrite IH. done.
Qed.

(** the third one is that of the callable's parameters *)
Lemma receive_init ps : ∀ qs gs m k1 w c, Forall2 (λ p q, invocable p q = true) ps qs → Forall2 (fits m) ps gs →
  match receive_all ps qs gs m with
  | Done ss m' c' => ∃ ls k', init_all qs (forward_all ps (locs (length k1) gs)) (St m (k1 ++ vals gs ++ w) c) = Ok ls (St m' (k1 ++ k') (c ++ (Caller <$> c')))
      ∧ (∃ t w', length t = length (vals gs) ∧ k' = t ++ w ++ w') ∧ ∀ c, mapM (see (St m' (k1 ++ k') c)) ls = Some ss
  | Threw m' c' => ∃ k', init_all qs (forward_all ps (locs (length k1) gs)) (St m (k1 ++ vals gs ++ w) c) = Exn ElementThrow (St m' (k1 ++ k') (c ++ (Caller <$> c')))
  end.
Proof.
  induction ps as [|p ps IH]; intros [|q qs] [|g gs] m k1 w c HI HF; try by inversion HI; try by inversion HF.
  { exists [], w. cbn. rewrite app_nil_r. split_and!; [done| |done]. exists [], []. by rewrite app_nil_r. }
  apply Forall2_cons in HI as [Hq HI]. apply Forall2_cons in HF as [Hg HF].
  assert (Hgo : ∀ m1 k1' w1 c1 l s,
    (∀ a, is_Some (m !! a) → is_Some (m1 !! a)) →
    init q (forward p (match g with GVal _ => Param (length k1) | GObj a => Caller a end)) (St m (k1 ++ vals (g :: gs) ++ w) c) = Ok l (St m1 (k1' ++ vals gs ++ w1) (c ++ (Caller <$> c1))) →
    length k1' = length k1 + length (vals [g]) → 
    (∃ t, k1' = k1 ++ t) → (∃ w2, w1 = w ++ w2) →
    (∀ t w', length t = length (vals gs) → ∀ c, see (St m1 (k1' ++ t ++ w1 ++ w') c) l = Some s) →
    match then_ (Done s m1 c1) (λ s m, then_ (receive_all ps qs gs m) (λ ss m, Done (s :: ss) m [])) with
    | Done ss m' c' => ∃ ls k', init_all (q :: qs) (forward_all (p :: ps) (locs (length k1) (g :: gs))) (St m (k1 ++ vals (g :: gs) ++ w) c) = Ok ls (St m' (k1 ++ k') (c ++ (Caller <$> c')))
      ∧ (∃ t w', length t = length (vals (g :: gs)) ∧ k' = t ++ w ++ w') ∧ ∀ c, mapM (see (St m' (k1 ++ k') c)) ls = Some ss
    | Threw m' c' => ∃ k', init_all (q :: qs) (forward_all (p :: ps) (locs (length k1) (g :: gs))) (St m (k1 ++ vals (g :: gs) ++ w) c) = Exn ElementThrow (St m' (k1 ++ k') (c ++ (Caller <$> c')))
    end).
  { intros m1 k1' w1 c1 l s Hm Hi Hk [t1 ->] [w2 ->] Hs.
    specialize (IH qs gs m1 (k1 ++ t1) (w ++ w2) (c ++ (Caller <$> c1)) HI (fits_weaken _ _ _ _ Hm HF)).
    assert (Hz : forward_all (p :: ps) (locs (length k1) (g :: gs)) =
      forward p (match g with GVal _ => Param (length k1) | GObj a => Caller a end) :: forward_all ps (locs (length (k1 ++ t1)) gs)).
    { rewrite Hk. destruct g; cbn; by rewrite ?Nat.add_1_r, ?Nat.add_0_r. }
    rewrite Hz. cbn [init_all then_]. unfold bind.
    destruct (receive_all ps qs gs m1) as [ss m2 c2|m2 c2]; cbn [then_].
    - destruct IH as (ls & k' & IH & (t & w' & Ht & ->) & Hsee). exists (l :: ls), (t1 ++ t ++ (w ++ w2) ++ w').
      rewrite Hi, IH. unfold ret. rewrite app_nil_r, fmap_app, <-!app_assoc. split_and!; [done| |].
      + exists (t1 ++ t), (w2 ++ w'). rewrite <-!app_assoc. split; [|done]. rewrite app_length in Hk |- *. destruct g; cbn in *; lia.
      + intros c'. cbn. rewrite <-!app_assoc in Hsee. rewrite Hsee.
        specialize (Hs t w' Ht c'). rewrite <-!app_assoc in Hs. destruct l; cbn in Hs |- *; [by injection Hs as <-|]. by rewrite Hs.
    - destruct IH as [k' IH]. exists (t1 ++ k'). rewrite Hi, IH. by rewrite fmap_app, !app_assoc. }
  destruct g as [v|a].
  - cbn in Hg. subst p. cbn [receive_all receive].
    destruct q; try done.
    + eapply (Hgo m (k1 ++ [moved v]) (w ++ [v]) [] (Param (length (k1 ++ vals (GVal v :: gs) ++ w)))); try done.
      * cbn [forward init vals app]. rewrite move_param. cbn. by rewrite app_nil_r, <-!app_assoc.
      * by rewrite app_length.
      * eauto.
      * eauto.
      * intros t w' Ht c'. cbn. rewrite <-!app_assoc. cbn.
        replace (k1 ++ moved v :: t ++ w ++ v :: w') with ((k1 ++ moved v :: t ++ w) ++ v :: w') by (by rewrite <-!app_assoc; cbn; rewrite <-!app_assoc).
        rewrite list_lookup_middle; [done|]. rewrite !app_length. cbn. rewrite !app_length. lia.
    + eapply (Hgo m (k1 ++ [v]) w [] (Param (length k1))); try done.
      * cbn. by rewrite app_nil_r, <-!app_assoc.
      * by rewrite app_length.
      * eauto.
      * exists []. by rewrite app_nil_r.
      * intros t w' Ht c'. cbn. rewrite <-!app_assoc. cbn. by rewrite list_lookup_middle.
    + eapply (Hgo m (k1 ++ [v]) w [] (Param (length k1))); try done.
      * cbn. by rewrite app_nil_r, <-!app_assoc.
      * by rewrite app_length.
      * eauto.
      * exists []. by rewrite app_nil_r.
      * intros t w' Ht c'. cbn. rewrite <-!app_assoc. cbn. by rewrite list_lookup_middle.
  - destruct Hg as [Hp [v Ev]]. cbn [receive_all receive].
    assert (Href : by_value q = false → match then_ (Done (inl a) m []) (λ s m, then_ (receive_all ps qs gs m) (λ ss m, Done (s :: ss) m [])) with
      | Done ss m' c' => ∃ ls k', init_all (q :: qs) (forward_all (p :: ps) (locs (length k1) (GObj a :: gs))) (St m (k1 ++ vals (GObj a :: gs) ++ w) c) = Ok ls (St m' (k1 ++ k') (c ++ (Caller <$> c')))
        ∧ (∃ t w', length t = length (vals (GObj a :: gs)) ∧ k' = t ++ w ++ w') ∧ ∀ c, mapM (see (St m' (k1 ++ k') c)) ls = Some ss
      | Threw m' c' => ∃ k', init_all (q :: qs) (forward_all (p :: ps) (locs (length k1) (GObj a :: gs))) (St m (k1 ++ vals (GObj a :: gs) ++ w) c) = Exn ElementThrow (St m' (k1 ++ k') (c ++ (Caller <$> c')))
      end).
    { intros Hb. eapply (Hgo m k1 w [] (Caller a)); try done.
      - cbn. rewrite app_nil_r. by destruct p, q.
      - exists []. by rewrite app_nil_r.
      - exists []. by rewrite app_nil_r. }
    assert (Hlast : ∀ m1 t w', length t = length (vals gs) → ∀ c, see (St m1 (k1 ++ t ++ (w ++ [v]) ++ w') c) (Param (length (k1 ++ vals gs ++ w))) = Some (inr v)).
    { intros m1 t w' Ht c'. cbn. replace (k1 ++ t ++ (w ++ [v]) ++ w') with ((k1 ++ t ++ w) ++ v :: w') by (by rewrite <-!app_assoc).
      rewrite list_lookup_middle; [done|]. rewrite !app_length. lia. }
    assert (Hcopy : q = PVal → p ≠ PRRef → match then_ (copy_obj m a inr) (λ s m, then_ (receive_all ps qs gs m) (λ ss m, Done (s :: ss) m [])) with
      | Done ss m' c' => ∃ ls k', init_all (q :: qs) (forward_all (p :: ps) (locs (length k1) (GObj a :: gs))) (St m (k1 ++ vals (GObj a :: gs) ++ w) c) = Ok ls (St m' (k1 ++ k') (c ++ (Caller <$> c')))
        ∧ (∃ t w', length t = length (vals (GObj a :: gs)) ∧ k' = t ++ w ++ w') ∧ ∀ c, mapM (see (St m' (k1 ++ k') c)) ls = Some ss
      | Threw m' c' => ∃ k', init_all (q :: qs) (forward_all (p :: ps) (locs (length k1) (GObj a :: gs))) (St m (k1 ++ vals (GObj a :: gs) ++ w) c) = Exn ElementThrow (St m' (k1 ++ k') (c ++ (Caller <$> c')))
      end).
    { intros -> Hr. assert (Hf : init PVal (forward p (Caller a)) = copy_from (Caller a)) by (by destruct p).
      pose proof (copy_step m (k1 ++ vals gs ++ w) c a v Ev) as Hs. unfold copy_obj. rewrite Ev. destruct (copy_throws v) eqn:Et.
      - cbn [then_]. exists (vals gs ++ w). cbn [forward_all zip_with locs init_all vals]. unfold bind at 1.
        rewrite Hf, Hs. cbn. by rewrite app_nil_r.
      - eapply (Hgo m k1 (w ++ [v]) [a]); try done.
        + cbn [vals]. rewrite Hf, Hs. by rewrite <-!app_assoc.
        + exists []. by rewrite app_nil_r.
        + eauto.
        + intros t w' Ht c'. by apply Hlast. }
    destruct q; cbn [by_value] in Href; try (apply Href; done); destruct p; try done; try (apply Hcopy; done).
    pose proof (move_step m (k1 ++ vals gs ++ w) c a v Ev) as Hs. unfold move_obj. rewrite Ev.
    eapply (Hgo (<[a := moved v]> m) k1 (w ++ [v]) []); try done.
    + intros b. apply insert_exists.
    + cbn [vals forward init]. rewrite Hs. cbn. by rewrite app_nil_r, <-!app_assoc.
    + exists []. by rewrite app_nil_r.
    + eauto.
    + intros t w' Ht c'. by apply Hlast.
Qed.

(** ** Calls *)
Lemma locs_length n gs : length (locs n gs) = length gs.
Proof. revert n. induction gs as [|[] gs IH]; intros n; cbn; [done|..]; by rewrite IH. Qed.
Lemma run_keeps callable ls : keeps (run_callable callable ls).
Proof. intros s. unfold run_callable. destruct (mapM (see s) ls) as [ss|]; [|done]. by destruct (callable ss (objs s)) as [[]]. Qed.
Lemma noexcept_keeps {R} b (m : M st R) : keeps m → keeps (maybe_noexcept b m).
Proof. intros H s. specialize (H s). destruct b; [|done]. cbn. unfold noexcept. by destruct (m s). Qed.

Lemma maybe_spec {R} b (m : M st R) s : maybe_noexcept b m s = match m s with Exn x s' => if b then Terminated else Exn x s' | r => r end.
Proof. destruct b; cbn; unfold noexcept; by destruct (m s). Qed.

Theorem C93_call qs callable nothrow ps xs m k c :
  Forall2 (λ p x, accepts p x = true) ps xs → Forall2 (λ p q, invocable p q = true) ps qs → Forall (exists_in m) xs →
  call_op qs callable nothrow ps (to_expr <$> xs) (St m k c) =
    match pass_all ps xs m with
    | Threw m1 c1 => Exn ElementThrow (St m1 k (c ++ (Caller <$> c1)))
    | Done gs m1 c1 =>
        match receive_all ps qs gs m1 with
        | Threw m2 c2 => if nothrow then Terminated else Exn ElementThrow (St m2 k (c ++ (Caller <$> c1 ++ c2)))
        | Done ss m2 c2 =>
            match callable ss m2 with
            | (Some r, m3) => Ok r (St m3 k (c ++ (Caller <$> c1 ++ c2)))
            | (None, m3) => if nothrow then Terminated else Exn ElementThrow (St m3 k (c ++ (Caller <$> c1 ++ c2)))
            end
        end
    end.
Proof.
  intros Ha Hi He. unfold call_op, functor, invoke_r.
  assert (K1 : ∀ es, keeps (func qs es (run_callable callable))) by (intros es; apply func_keeps; intros; apply run_keeps).
  assert (K2 : ∀ es, keeps (func ps es (λ ls, maybe_noexcept nothrow (func qs (forward_all ps ls) (run_callable callable)))))
    by (intros es; apply func_keeps; intros; by apply noexcept_keeps).
  rewrite func_spec by (intros; by apply noexcept_keeps).
  assert (Hcut : ∀ m k' c, cut (length k) (St m (k ++ k') c) = St m k c).
  { intros. unfold cut. cbn. by rewrite take_app. }
  pose proof (pass_all_init ps xs m k c Ha He) as H1. destruct (pass_all ps xs m) as [gs m1 c1|m1 c1].
  2: { destruct H1 as [k' ->]. unfold height; cbn [stack]. by rewrite Hcut. }
  destruct H1 as (-> & Hf & Hm). unfold height; cbn [stack].
  set (c1' := c ++ (Caller <$> c1)).
  assert (E2 : func ps (forward_all ps (locs (length k) gs)) (λ ls, maybe_noexcept nothrow (func qs (forward_all ps ls) (run_callable callable))) (St m1 (k ++ vals gs) c1') =
    match receive_all ps qs gs m1 with
    | Threw m2 c2 => if nothrow then Terminated else Exn ElementThrow (St m2 (k ++ (moved <$> vals gs)) (c1' ++ (Caller <$> c2)))
    | Done ss m2 c2 =>
        match callable ss m2 with
        | (Some r, m3) => Ok r (St m3 (k ++ (moved <$> vals gs)) (c1' ++ (Caller <$> c2)))
        | (None, m3) => if nothrow then Terminated else Exn ElementThrow (St m3 (k ++ (moved <$> vals gs)) (c1' ++ (Caller <$> c2)))
        end
    end).
  { rewrite func_spec by (intros; by apply noexcept_keeps).
    pose proof (forward_init ps gs m1 k [] c1' Hf) as H2. rewrite !app_nil_r in H2. rewrite H2. unfold height; cbn [app stack]. clear H2.
    rewrite maybe_spec, func_spec by (intros; apply run_keeps). unfold height; cbn [stack].
    set (k1 := k ++ (moved <$> vals gs)).
    assert (Hk1 : length k1 = length (k ++ vals gs)) by (unfold k1; by rewrite !app_length, fmap_length).
    pose proof (receive_init ps qs gs m1 k1 [] c1' Hi Hf) as H3. rewrite !app_nil_r in H3. rewrite (app_assoc k). fold k1. rewrite <-Hk1.
    assert (Hcut1 : ∀ m k' c, cut (length k1) (cut (length (k1 ++ vals gs)) (St m (k1 ++ k') c)) = St m k1 c).
    { intros. rewrite cut_cut by (rewrite app_length; lia). unfold cut. cbn. by rewrite take_app. }
    destruct (receive_all ps qs gs m1) as [ss m2 c2|m2 c2].
    - destruct H3 as (ls & k' & -> & _ & Hsee). unfold run_callable. rewrite Hsee. cbn [objs].
      cbn [stack copied]. destruct (callable ss m2) as [[r|] m3]; [by rewrite Hcut1|]. destruct nothrow; [done|]. by rewrite Hcut1.
    - destruct H3 as (k' & ->). destruct nothrow; [done|]. by rewrite Hcut1. }
  rewrite maybe_spec, E2. unfold c1'.
  destruct (receive_all ps qs gs m1) as [ss m2 c2|m2 c2].
  - destruct (callable ss m2) as [[r|] m3]; destruct nothrow; try done; rewrite Hcut, fmap_app, app_assoc; done.
  - destruct nothrow; [done|]. by rewrite Hcut, fmap_app, app_assoc.
Qed.

(** ** Arguments that are different objects *)
Definition moved_at_call (t : triple) : option nat := match t with (PVal, _, Rvalue a false) => Some a | _ => None end.
Definition moved_later (t : triple) : option nat := match t with (PRRef, PVal, Rvalue a false) => Some a | _ => None end.
(** what the first conversion gives *)
Definition gives (m : gmap nat V) (t : triple) (g : given) : Prop :=
  let '(p, q, x) := t in
  if is_ref p then ∃ a, object_of x = Some a ∧ g = GObj a
  else ∃ v, g = GVal v ∧ (x = Prvalue v ∨ ∃ a, object_of x = Some a ∧ m !! a = Some v).
Definition fine (m : gmap nat V) (t : triple) : Prop :=
  let '(p, q, x) := t in accepts p x = true ∧ invocable p q = true ∧ exists_in m x.

Lemma omap_sub (f : triple → option nat) ts : (∀ t a, f t = Some a → object_of t.2 = Some a) → ∀ a, a ∈ omap f ts → a ∈ objects ts.
Proof.
  intros H a (t & Ht & E)%elem_of_list_omap. apply elem_of_list_omap. exists t.2. split; [|by apply H].
  apply elem_of_list_fmap. eauto.
Qed.
Lemma moved_at_call_object t a : moved_at_call t = Some a → object_of t.2 = Some a.
Proof. destruct t as [[[] q] [? []|? []|]]; cbn; congruence. Qed.
Lemma moved_later_object t a : moved_later t = Some a → object_of t.2 = Some a.
Proof. destruct t as [[[] []] [? []|? []|]]; cbn; congruence. Qed.
Lemma objects_cons t ts : objects (t :: ts) = match object_of t.2 with Some a => a :: objects ts | None => objects ts end.
Proof. done. Qed.
Lemma fine_weaken (m m' : gmap nat V) ts : (∀ a, is_Some (m !! a) → is_Some (m' !! a)) → Forall (fine m) ts → Forall (fine m') ts.
Proof. intros H HF. eapply Forall_impl; [exact HF|]. intros [[p q] x] (? & ? & Hx). split_and!; try done. intros a Ea. by apply H, Hx. Qed.

Definition after (f : triple → option nat) (ts : list triple) (m m' : gmap nat V) : Prop :=
  ∀ a, m' !! a = if bool_decide (a ∈ omap f ts) then moved <$> m !! a else m !! a.
Lemma after_cons_none f t ts m m' : f t = None → after f ts m m' → after f (t :: ts) m m'.
Proof. intros E H a. rewrite H. by cbn; rewrite E. Qed.
Lemma after_cons_some f t ts m m' a v : f t = Some a → m !! a = Some v → a ∉ omap f ts → after f ts (<[a := moved v]> m) m' → after f (t :: ts) m m'.
Proof.
  intros E Ev Hn H b. rewrite H. cbn. rewrite E. destruct (decide (a = b)) as [->|Hb].
  - rewrite bool_decide_false by done. rewrite bool_decide_true by (by left). by rewrite lookup_insert, Ev.
  - rewrite lookup_insert_ne by done. by rewrite (bool_decide_ext (b ∈ a :: omap f ts) (b ∈ omap f ts)) by (rewrite elem_of_cons; naive_solver).
Qed.

Lemma gives_frame (m m' : gmap nat V) ts gs : Forall2 (gives m') ts gs → (∀ a, a ∈ objects ts → m' !! a = m !! a) → Forall2 (gives m) ts gs.
Proof.
  induction 1 as [|[[p q] x] g ts gs Hg HF IH]; intros H; constructor.
  - unfold gives in *. destruct (is_ref p); [done|]. destruct Hg as (v & -> & Hv). exists v. split; [done|].
    destruct Hv as [->|(a & Ea & Ev)]; [by left|]. right. exists a. split; [done|]. rewrite <-H; [done|].
    rewrite objects_cons. cbn [snd]. rewrite Ea. by left.
  - apply IH. intros a Ha. apply H. rewrite objects_cons. cbn [snd]. destruct (object_of x); [by right|done].
Qed.

Context (Hcopy : ∀ v, copy_throws v = false).
Lemma pass_distinct ts : ∀ m, NoDup (objects ts) → Forall (fine m) ts →
  ∃ gs m1, pass_all (sig_of ts) (args_of ts) m = Done gs m1 (omap copied_at_call ts) ∧ Forall2 (gives m) ts gs ∧ after moved_at_call ts m m1.
Proof.
  induction ts as [|[[p q] x] ts IH]; intros m HN HF.
  { exists [], m. split_and!; [done|constructor|]. intros a. done. }
  rewrite objects_cons in HN. apply Forall_cons in HF as [(Ha & Hq & Hx) HF]. cbn [snd] in HN.
  assert (HN' : NoDup (objects ts)) by (destruct (object_of x); [by apply NoDup_cons in HN as []|done]).
  change (sig_of ((p, q, x) :: ts)) with (p :: sig_of ts). change (args_of ((p, q, x) :: ts)) with (x :: args_of ts). cbn [pass_all].
  destruct (moved_at_call (p, q, x)) as [a|] eqn:Em.
  - pose proof (moved_at_call_object _ _ Em) as Eo. cbn [snd] in Eo. destruct (Hx a Eo) as [v Ev].
    assert (p = PVal ∧ x = Rvalue a false) as [-> ->] by (destruct p, x as [? []|? []|]; naive_solver).
    cbn [pass]. unfold move_obj. rewrite Ev. cbn [then_ object_of] in *. apply NoDup_cons in HN as [Hn _].
    destruct (IH (<[a := moved v]> m) HN') as (gs & m1 & -> & Hgs & Hm1).
    { eapply fine_weaken; [|done]. intros b. apply insert_exists. }
    exists (GVal v :: gs), m1. cbn [then_ app]. rewrite app_nil_r. split_and!.
    + done.
    + constructor.
      * exists v. split; [done|]. right. exists a. done.
      * eapply gives_frame; [done|]. intros b Hb. apply lookup_insert_ne. by intros ->.
    + eapply after_cons_some; [done|exact Ev| |done]. intros Hin. apply Hn. eapply omap_sub; [|done]. apply moved_at_call_object.
  - destruct (IH m HN' HF) as (gs & m1 & E1 & Hgs & Hm1).
    assert (∃ g, pass p x m = Done g m (match copied_at_call (p, q, x) with Some a => [a] | None => [] end) ∧ gives m (p, q, x) g) as (g & Eg & Hg).
    { assert (HC : ∀ a, object_of x = Some a → p = PVal → ∃ g, copy_obj m a GVal = Done g m [a] ∧ gives m (p, q, x) g).
      { intros a Ea ->. destruct (Hx a Ea) as [v Ev]. exists (GVal v). unfold copy_obj. rewrite Ev, Hcopy. split; [done|].
        exists v. split; [done|]. right. eauto. }
      destruct p, x as [a []|a []|v]; try done; cbn [pass copied_at_call]; try (by apply HC); eexists; (split; [done|]); cbn; naive_solver. }
    exists (g :: gs), m1. rewrite Eg. cbn [then_]. rewrite E1. cbn [then_]. rewrite app_nil_r. split_and!.
    + f_equal. cbn [omap list_omap]. by destruct (copied_at_call (p, q, x)).
    + by constructor.
    + by apply after_cons_none.
Qed.
Lemma receive_distinct m0 ts : ∀ gs m, NoDup (objects ts) → Forall (fine m) ts → Forall2 (gives m0) ts gs →
  (∀ p q x a, (p, q, x) ∈ ts → is_ref p = true → object_of x = Some a → m !! a = m0 !! a) →
  ∃ ss m2, receive_all (sig_of ts) (call_of ts) gs m = Done ss m2 (omap copied_for_callable ts) ∧ Forall2 (sees m0) ts ss ∧ after moved_later ts m m2.
Proof.
  induction ts as [|[[p q] x] ts IH]; intros gs m HN HF HG H0.
  { apply Forall2_nil_inv_l in HG as ->. exists [], m. split_and!; [done|constructor|]. intros a. done. }
  apply Forall2_cons_inv_l in HG as (g & gs' & Hg & HG & ->).
  rewrite objects_cons in HN. apply Forall_cons in HF as [(Ha & Hq & Hx) HF]. cbn [snd] in HN.
  assert (HN' : NoDup (objects ts)) by (destruct (object_of x); [by apply NoDup_cons in HN as []|done]).
  change (sig_of ((p, q, x) :: ts)) with (p :: sig_of ts). change (call_of ((p, q, x) :: ts)) with (q :: call_of ts). cbn [receive_all].
  destruct (moved_later (p, q, x)) as [a|] eqn:Em.
  - pose proof (moved_later_object _ _ Em) as Eo. cbn [snd] in Eo. destruct (Hx a Eo) as [v Ev].
    assert (p = PRRef ∧ q = PVal ∧ x = Rvalue a false) as (-> & -> & ->) by (destruct p, q, x as [? []|? []|]; naive_solver).
    destruct Hg as (b & [= <-] & ->). cbn [receive]. unfold move_obj. rewrite Ev. cbn [then_ object_of] in *. apply NoDup_cons in HN as [Hn _].
    destruct (IH gs' (<[a := moved v]> m) HN') as (ss & m2 & -> & Hss & Hm2).
    { eapply fine_weaken; [|done]. intros b. apply insert_exists. }
    { done. }
    { intros p' q' x' b Hin Hr Eb. rewrite lookup_insert_ne; [by eapply H0; [by right|..]|]. intros ->. apply Hn.
      apply elem_of_list_omap. exists x'. split; [|done]. apply elem_of_list_fmap. by exists (p', q', x'). }
    exists (inr v :: ss), m2. cbn [then_ app]. rewrite app_nil_r. split_and!.
    + done.
    + constructor; [|done]. exists v. split; [done|]. right. exists a. split; [done|]. rewrite <-Ev. symmetry. by eapply H0; [left|..].
    + eapply after_cons_some; [done|exact Ev| |done]. intros Hin. apply Hn. eapply omap_sub; [|done]. apply moved_later_object.
  - destruct (IH gs' m HN' HF HG) as (ss & m2 & E1 & Hss & Hm2).
    { intros p' q' x' b Hin. eapply H0. by right. }
    assert (∃ s, receive p q g m = Done s m (match copied_for_callable (p, q, x) with Some a => [a] | None => [] end) ∧ sees m0 (p, q, x) s) as (s & Es & Hs).
    { destruct (is_ref p) eqn:Ep.
      - unfold gives in Hg. rewrite Ep in Hg. destruct Hg as (a & Ea & ->). destruct (Hx a Ea) as [v Ev].
        assert (E0 : m !! a = m0 !! a) by (eapply H0; [by left|done..]).
        destruct (is_ref q) eqn:Eq.
        + exists (inl a). split; [by destruct p, q|]. unfold sees. rewrite Ep, Eq. cbn. eauto.
        + exists (inr v). destruct q; try done. split.
          * destruct p; try done; cbn [receive copied_for_callable]; rewrite ?Ea; try (unfold copy_obj; by rewrite Ev, Hcopy).
            destruct x as [? []|? []|]; try done; cbn in Em; congruence.
          * unfold sees. rewrite Ep. cbn. exists v. split; [done|]. right. exists a. by rewrite <-E0.
      - destruct p; try done. destruct Hg as (v & -> & Hv). exists (inr v). split; [done|]. unfold sees. cbn. eauto. }
    exists (s :: ss), m2. rewrite Es. cbn [then_]. rewrite E1. cbn [then_]. rewrite app_nil_r. split_and!.
    + f_equal. cbn [omap list_omap]. by destruct (copied_for_callable (p, q, x)).
    + by constructor.
    + by apply after_cons_none.
Qed.

Theorem C93_arguments ts callable nothrow m k c :
  NoDup (objects ts) →
  (∀ p q x, (p, q, x) ∈ ts → accepts p x = true ∧ invocable p q = true ∧ exists_in m x) →
  ∃ ss m',
    Forall2 (sees m) ts ss
    ∧ (∀ t a, t ∈ ts → moved_from t = Some a → m' !! a = moved <$> m !! a)
    ∧ (∀ a, (∀ t, t ∈ ts → moved_from t ≠ Some a) → m' !! a = m !! a)
    ∧ call_op (call_of ts) callable nothrow (sig_of ts) (to_expr <$> args_of ts) (St m k c) =
        let copies := omap copied_at_call ts ++ omap copied_for_callable ts in
        match callable ss m' with
        | (Some r, m2) => Ok r (St m2 k (c ++ (Caller <$> copies)))
        | (None, m2) => if nothrow then Terminated else Exn ElementThrow (St m2 k (c ++ (Caller <$> copies)))
        end.
Proof.
  intros HN HF.
  assert (HF' : Forall (fine m) ts) by (apply Forall_forall; intros [[p q] x] Hin; by apply HF).
  destruct (pass_distinct ts m HN HF') as (gs & m1 & E1 & Hgs & Hm1).
  assert (Hex : ∀ a, is_Some (m !! a) → is_Some (m1 !! a)) by (intros a [v Ev]; rewrite Hm1, Ev; destruct (bool_decide _); cbn; eauto).
  assert (Hu : ∀ t t' a, t ∈ ts → t' ∈ ts → object_of t.2 = Some a → object_of t'.2 = Some a → t = t').
  { clear -HN. induction ts as [|u ts IH]; intros t t' a H1 H2 Ea Eb; [by apply elem_of_nil in H1|].
    rewrite objects_cons in HN.
    assert (Hin : ∀ t, t ∈ ts → object_of t.2 = Some a → a ∈ objects ts).
    { intros t0 H0 E0. apply elem_of_list_omap. exists t0.2. split; [|done]. apply elem_of_list_fmap. eauto. }
    apply elem_of_cons in H1 as [->|H1], H2 as [->|H2]; [done|..].
    - rewrite Ea in HN. apply NoDup_cons in HN as [Hn _]. by destruct Hn; eapply Hin.
    - rewrite Eb in HN. apply NoDup_cons in HN as [Hn _]. by destruct Hn; eapply Hin.
    - eapply IH; try done. destruct (object_of u.2); [by apply NoDup_cons in HN as []|done]. }
  destruct (receive_distinct m ts gs m1 HN) as (ss & m2 & E2 & Hss & Hm2).
  { by eapply fine_weaken. }
  { done. }
  { intros p q x a Hin Hr Ea. rewrite Hm1. rewrite bool_decide_false; [done|].
    intros ([[p' q'] x'] & Hin' & Em)%elem_of_list_omap.
    pose proof (Hu _ _ _ Hin Hin' Ea (moved_at_call_object _ _ Em)) as [= <- <- <-]. by destruct p. }
  exists ss, m2. split_and!; [done|..].
  - intros [[p q] x] a Hin Em. rewrite Hm2, Hm1.
    assert (Hcase : moved_at_call (p, q, x) = Some a ∨ moved_later (p, q, x) = Some a) by (destruct p, q, x as [? []|? []|]; cbn in *; auto).
    assert (Hnot : ∀ f g : triple → option nat, (∀ t a, f t = Some a → object_of t.2 = Some a) → (∀ t a, g t = Some a → object_of t.2 = Some a) →
      f (p, q, x) = Some a → g (p, q, x) = None → a ∉ omap g ts).
    { intros f g Hf Hg Ef Eg ([[p' q'] x'] & Hin' & E')%elem_of_list_omap.
      pose proof (Hu _ _ _ Hin Hin' (Hf _ _ Ef) (Hg _ _ E')) as [= <- <- <-]. congruence. }
    destruct Hcase as [Hc|Hc].
    + rewrite (bool_decide_false (a ∈ omap moved_later ts)), bool_decide_true; [done|apply elem_of_list_omap; eauto|].
      eapply (Hnot moved_at_call); [apply moved_at_call_object|apply moved_later_object|done|]. by destruct p, q, x as [? []|? []|].
    + rewrite (bool_decide_true (a ∈ omap moved_later ts)), bool_decide_false; [done| |apply elem_of_list_omap; eauto].
      eapply (Hnot moved_later); [apply moved_later_object|apply moved_at_call_object|done|]. by destruct p, q, x as [? []|? []|].
  - intros a Hno. rewrite Hm2, Hm1, !bool_decide_false; [done|..].
    + intros (t & Hin & Et)%elem_of_list_omap. apply (Hno t Hin). by destruct t as [[[] []] [? []|? []|]].
    + intros (t & Hin & Et)%elem_of_list_omap. apply (Hno t Hin). by destruct t as [[[] []] [? []|? []|]].
  - rewrite C93_call.
    + rewrite E1, E2. done.
    + clear -HF'. induction HF' as [|[[p q] x] ts (? & ? & ?) HF' IH]; constructor; done.
    + clear -HF'. induction HF' as [|[[p q] x] ts (? & ? & ?) HF' IH]; constructor; done.
    + apply Forall_fmap. eapply Forall_impl; [exact HF'|]. by intros [[p q] x] (? & ? & ?).
Qed.
End proofs.

Section rejected.
Context `{C : ArgsCfg}.
(** Nothing else compiles: no call returns if an argument does not fit the signature, or the
    signature does not fit the callable; in particular no const is lost *)
Lemma init_accepts p x s l s' : init p (to_expr x) s = Ok l s' → accepts p x = true.
Proof. by destruct p, x as [a []|a []|v]. Qed.
Lemma init_forward p q l s l' s' : init q (forward p l) s = Ok l' s' → invocable p q = true.
Proof. by destruct p, q. Qed.
Lemma func_ok {R} ps : ∀ es (body : list loc → M st R) s r s', func ps es body s = Ok r s' →
  Forall2 (λ p e, ∃ l s1 s2, init p e s1 = Ok l s2) ps es ∧ ∃ ls s1 s2, length ls = length ps ∧ body ls s1 = Ok r s2.
Proof.
  induction ps as [|p ps IH]; intros [|e es] body s r s' Hf; try done.
  - cbn in Hf. split; [constructor|]. by exists [], s, s'.
  - cbn [func] in Hf. unfold bind at 1 in Hf. destruct (init p e s) as [l s1|? ?|?|] eqn:Ei; try done.
    unfold bind at 1, on_exn in Hf.
    destruct (func ps es (λ ls, body (l :: ls)) s1) as [r' s2|? ?|?|] eqn:Ef; try done.
    + apply IH in Ef as [Hall (ls & s3 & s4 & Hl & Eb)]. split; [constructor; [by exists l, s, s1|done]|].
      assert (r' = r) as ->.
      { unfold bind, ret in Hf. destruct (by_value p); [destruct (pop s2)|]; naive_solver. }
      exists (l :: ls), s3, s4. split; [cbn; lia|done].
    + by destruct ((if by_value p then pop else ret ()) _).
Qed.
Theorem C93_rejected qs callable nothrow ps xs s r s' :
  call_op qs callable nothrow ps (to_expr <$> xs) s = Ok r s' →
  Forall2 (λ p x, accepts p x = true) ps xs ∧ Forall2 (λ p q, invocable p q = true) ps qs.
Proof.
  intros Hc. apply func_ok in Hc as [Ha (ls & s1 & s2 & Hl & Hc)]. split.
  { apply Forall2_fmap_r in Ha. eapply Forall2_impl; [done|]. intros p x (l & t1 & t2 & Hi). by eapply init_accepts. }
  assert (functor qs callable nothrow ps (forward_all ps ls) s1 = Ok r s2) as Hc'.
  { unfold maybe_noexcept, noexcept in Hc. destruct nothrow; [|done]. by destruct (functor _ _ _ _ _ _). }
  apply func_ok in Hc' as [_ (ls' & s3 & s4 & Hl' & Hi)].
  assert (invoke_r qs callable (forward_all ps ls') s3 = Ok r s4) as Hi'.
  { unfold maybe_noexcept, noexcept in Hi. destruct nothrow; [|done]. by destruct (invoke_r _ _ _ _). }
  apply func_ok in Hi' as [Hq _]. clear -Hq Hl'. unfold forward_all in Hq. revert qs ls' Hl' Hq.
  induction ps as [|p ps IH]; intros qs [|l ls] Hl Hq; try done.
  - apply Forall2_nil_inv_r in Hq as ->. constructor.
  - cbn [zip_with] in Hq. apply Forall2_cons_inv_r in Hq as (q & qs' & (l' & t1 & t2 & Hi) & Hq & ->).
    constructor; [by eapply init_forward|]. eapply IH; [|done]. cbn in Hl. lia.
Qed.
End rejected.
(** a noexcept signature ends the program if moving an argument throws, though the callable never does *)
Theorem C93_noexcept_refuted `{C : ArgsCfg} v callable m k c : move_throws v = true →
  call_op [PCRef] callable true [PVal] [to_expr (Prvalue v)] (St m k c) = Terminated
  ∧ call_op [PCRef] callable false [PVal] [to_expr (Prvalue v)] (St m k c) = Exn ElementThrow (St m k c).
Proof.
  intros Hv. unfold call_op, functor. cbn [func to_expr init by_value]. unfold bind, push. cbn [objs stack copied].
  unfold on_exn, maybe_noexcept, noexcept. cbn [forward_all zip_with forward func init by_value]. unfold bind, move_from, read, lookup_loc, bind, throw.
  cbn [stack]. rewrite list_lookup_middle by done. rewrite Hv. split; [done|].
  cbn. unfold pop. cbn [stack objs copied]. destruct (k ++ [v]) eqn:E; [by destruct k|]. rewrite <-E, app_length. cbn.
  replace (length k + 1 - 1) with (length k) by lia. by rewrite take_app.
Qed.

(** numbers; 0 is what a move leaves *)
Definition demo (cannot_copy cannot_move : nat → bool) : ArgsCfg :=
  {| V := nat; moved := λ _, 0; copy_throws := cannot_copy; move_throws := cannot_move |}.
Definition never : nat → bool := λ _, false.
Definition demo_objs : gmap nat nat := list_to_map [(1, 10); (2, 20); (3, 30); (4, 40); (5, 50)].
(** sums what it sees and sets the objects it sees to 99 *)
Definition demo_callable (ss : list (nat + nat)) (m : gmap nat nat) : option nat * gmap nat nat :=
  (Some (sum_list ((λ s, match s with inl a => default 0 (m !! a) | inr v => v end) <$> ss)),
   foldr (λ s m, match s with inl a => <[a := 99]> m | inr _ => m end) m ss).
Example C93_case : let _ := demo never never in
  let ts := [(PVal, PCRef, Lvalue 1 false); (PVal, PVal, Rvalue 2 false); (PRef, PRef, Lvalue 3 false); (PRRef, PVal, Rvalue 4 false); (PCRef, PVal, Lvalue 5 true); (PVal, PRRef, Prvalue 7)] in
  (∀ v, move_throws v = false) ∧ (∀ v, copy_throws v = false)
  ∧ NoDup (objects ts)
  ∧ (∀ p q x, (p, q, x) ∈ ts → accepts p x = true ∧ invocable p q = true ∧ exists_in demo_objs x)
  ∧ match call_op (call_of ts) demo_callable true (sig_of ts) (to_expr <$> args_of ts) (St demo_objs [] []) with
    | Ok r s => r = 157 ∧ map_to_list (objs s) = map_to_list (list_to_map [(1, 10); (2, 0); (3, 99); (4, 0); (5, 50)] : gmap nat nat) ∧ stack s = [] ∧ copied s = [Caller 1; Caller 5]
    | _ => False
    end.
Proof.
  split_and!; [done|done|..].
  - cbn. repeat (constructor; [set_solver|]). constructor.
  - intros p q x Hin. repeat (apply elem_of_cons in Hin as [[= -> -> ->]|Hin]; [split_and!; try done; intros a [= <-]; by eexists|]). by apply elem_of_nil in Hin.
  - by vm_compute.
Qed.
(** an argument that is moved from before it is copied, and copies that throw *)
Example C93_order : let _ := demo (λ v, v =? 666) never in
  match call_op [PVal; PVal] demo_callable false [PVal; PVal] (to_expr <$> [Rvalue 1 false; Lvalue 1 false]) (St demo_objs [] []) with
  | Ok r s => r = 10 ∧ objs s !! 1 = Some 0
  | _ => False
  end
  ∧ call_op [PVal] demo_callable true [PVal] (to_expr <$> [Lvalue 1 false]) (St {[ 1 := 666 ]} [] []) = Exn ElementThrow (St {[ 1 := 666 ]} [] [])
  ∧ call_op [PVal] demo_callable true [PRef] (to_expr <$> [Lvalue 1 false]) (St {[ 1 := 666 ]} [] []) = Terminated.
Proof. by vm_compute. Qed.
(** a const object for T &, and one that the signature makes const *)
Example C93_rejected_case : let _ := demo never never in
  call_op [PCRef] demo_callable false [PRef] (to_expr <$> [Lvalue 1 true]) (St demo_objs [] []) = Stuck WrongType
  ∧ call_op [PRef] demo_callable false [PCRef] (to_expr <$> [Lvalue 1 false]) (St demo_objs [] []) = Stuck WrongType
  ∧ match call_op [PRef] demo_callable false [PRef] (to_expr <$> [Lvalue 1 false]) (St demo_objs [] []) with Ok r _ => r = 10 | _ => False end.
Proof. by vm_compute. Qed.
(** moves that throw *)
Example C93_move : let _ := demo never (λ v, v =? 777) in
  call_op [PCRef] demo_callable true [PVal] (to_expr <$> [Prvalue 777]) (St ∅ [] []) = Terminated
  ∧ call_op [PCRef] demo_callable true [PVal] (to_expr <$> [Prvalue 778]) (St ∅ [] []) = Ok 778 (St ∅ [] []).
Proof. by vm_compute. Qed.

Print Assumptions C93_rejected.
Print Assumptions C93_call.
Print Assumptions C93_arguments.
Print Assumptions C93_noexcept_refuted.
