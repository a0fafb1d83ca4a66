(** What function_ref is supposed to be: a name for a callable. The state maps names of
    function_refs to the callable they were bound to; calling one is calling the callable. *)
From stdpp Require Import prelude gmap.
From Verif Require Import Cpp FunctionRefModel.
Local Open Scope nat_scope.

Section spec.
Context `{C : FRefCfg}.

(** a free function, or object [a] of class [c], given as const or not *)
Inductive callee := CFun (n : nat) | CObj (a c : nat) (k : bool).
Record sref := SRef { s_sig : sig; s_callee : callee }.
Record state := State { s_objs : gmap nat (nat * bool * V); s_refs : gmap nat sref; s_log : list (target * bool * A) }.
Definition set_sobjs (s : state) m := State m (s_refs s) (s_log s).
Definition set_srefs (s : state) m := State (s_objs s) m (s_log s).

(** calling a callable: what it answers ([None] inside: it throws) and the state afterwards *)
Definition scall (s : state) (t : callee) (x : A) : option (option (answer V) * state) :=
  match t with
  | CFun n => Some (fun_body n x, State (s_objs s) (s_refs s) (s_log s ++ [(TFun n, false, x)]))
  | CObj a c k =>
      match s_objs s !! a with
      | Some (c', k', v) =>
          if decide (c = c' ∧ (k' = true → k = true)) then
            if decide (k = false ∧ has_mut c = true) then
              let '(r, v') := mut_body c v x in
              Some (r, State (<[a:=(c', k', v')]> (s_objs s)) (s_refs s) (s_log s ++ [(TObj a, false, x)]))
            else Some (const_body c v x, State (s_objs s) (s_refs s) (s_log s ++ [(TObj a, true, x)]))
          else None
      | None => None
      end
  end.
(** the value of an answer, once it is copied *)
Definition svalue (s : state) (r : answer V) : option V :=
  match r with AVal v => Some v | ARef b => match s_objs s !! b with Some (_, _, v) => Some v | None => None end end.
(** may a call expression be formed, and if the signature is noexcept, is it noexcept? *)
Definition callable (g : sig) (t : callee) : bool :=
  match t with
  | CFun n => negb (g_noexcept g) || nothrow_fun n
  | CObj _ c k =>
      if decide (k = false ∧ has_mut c = true) then negb (g_noexcept g) || nothrow_mut c
      else has_const c && (negb (g_noexcept g) || nothrow_const c)
  end.
(** the callable as seen through the qualifiers of the signature *)
Definition qualified (g : sig) (t : callee) : callee :=
  match t with CFun n => CFun n | CObj a c k => CObj a c (g_const g || k) end.

(** the effect of a call; [Throws] carries the state left behind. [Bad] includes calls whose
    signature returns a reference, see C66, and exceptions leaving a noexcept signature *)
Inductive outcome := Bad | Done (r : frobs) (s : state) | Throws (e : exn) (s : state).
Definition sstep (o : frop) (s : state) : outcome :=
  match o with
  | FNewObj a c k v => match s_objs s !! a with None => Done BUnit (set_sobjs s (<[a:=(c, k, v)]> (s_objs s))) | Some _ => Bad end
  | FSetObj a v =>
      match s_objs s !! a with Some (c, false, _) => Done BUnit (set_sobjs s (<[a:=(c, false, v)]> (s_objs s))) | _ => Bad end
  | FReadObj a => match s_objs s !! a with Some (_, _, v) => Done (BVal v) s | None => Bad end
  | FDelObj a => match s_objs s !! a with Some _ => Done BUnit (set_sobjs s (delete a (s_objs s))) | None => Bad end
  | FBindFun x g n =>
      match s_refs s !! x with
      | None => if callable g (CFun n) then Done BUnit (set_srefs s (<[x:=SRef g (CFun n)]> (s_refs s))) else Bad
      | Some _ => Bad
      end
  | FBindObj x g k a =>
      match s_refs s !! x, s_objs s !! a with
      | None, Some (c, k', _) =>
          let t := CObj a c (k || k') in
          if callable g (qualified g t) then Done BUnit (set_srefs s (<[x:=SRef g t]> (s_refs s))) else Bad
      | _, _ => Bad
      end
  | FCopy x y =>
      match s_refs s !! x, s_refs s !! y with
      | None, Some r => Done BUnit (set_srefs s (<[x:=r]> (s_refs s)))
      | _, _ => Bad
      end
  | FAssign x y =>
      match s_refs s !! x, s_refs s !! y with
      | Some t, Some r => if decide (s_sig t = s_sig r) then Done BUnit (set_srefs s (<[x:=r]> (s_refs s))) else Bad
      | _, _ => Bad
      end
  | FAssignFun x n =>
      match s_refs s !! x with
      | Some t => if callable (s_sig t) (CFun n) then Done BUnit (set_srefs s (<[x:=SRef (s_sig t) (CFun n)]> (s_refs s))) else Bad
      | None => Bad
      end
  | FDel x => match s_refs s !! x with Some _ => Done BUnit (set_srefs s (delete x (s_refs s))) | None => Bad end
  | FCall x v =>
      match s_refs s !! x with
      | Some r =>
          if g_ref (s_sig r) then Bad else
          match scall s (s_callee r) v with
          | Some (Some a, s') => match svalue s' a with Some u => Done (BResult (RVal u)) s' | None => Bad end
          | Some (None, s') => if g_noexcept (s_sig r) then Bad else Throws ElementThrow s'
          | None => Bad
          end
      | None => Bad
      end
  end.
Fixpoint srun (os : list frop) (s : state) : option (list frobs * state) :=
  match os with
  | [] => Some ([], s)
  | o :: os' =>
      let go r s' := match srun os' s' with Some (rs, s'') => Some (r :: rs, s'') | None => None end in
      match sstep o s with Bad => None | Throws e s' => go (BThrew e) s' | Done r s' => go r s' end
  end.
Definition init_state : state := State ∅ ∅ [].

(** what the program shows: the objects and their states, the function_refs that exist, the
    calls the callables received *)
Definition shows (w : world) (s : state) : Prop :=
  (∀ a, (λ o, (ob_class o, ob_const o, ob_state o)) <$> objs w !! a = s_objs s !! a) ∧
  (∀ x, f_sig <$> refs w !! x = s_sig <$> s_refs s !! x) ∧
  log w = s_log s.
Definition reachable (w : world) (s : state) : Prop :=
  ∃ os rs, srun os init_state = Some (rs, s) ∧ frrun os init_world = Finished rs w.
End spec.
