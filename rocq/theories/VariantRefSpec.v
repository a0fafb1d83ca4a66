(** What variant_ref is supposed to be: the pair of an alternative and an object. The state
    maps addresses to objects (type and value) and names of variant_refs to such pairs. No
    index, union or dispatch table occurs here. *)
From stdpp Require Import prelude gmap.
From Verif Require Import Cpp VariantRefModel.
Local Open Scope nat_scope.

Section spec.
Context `{C : VRefCfg}.

Record state := State { s_objs : gmap nat (ty * V); s_refs : gmap nat (ty * nat); s_calls : list (ty * nat * V) }.

(** the alternative an expression of type [T] binds to: T itself for an lvalue, if listed,
    otherwise const T, if listed *)
Definition sbind (lv : bool) (T : ty) : option ty :=
  if decide (lv = true ∧ T ∈ alts) then Some T
  else if decide (add_const T ∈ alts) then Some (add_const T)
  else None.
(** may the object at [a] be used as a [T &]? *)
Definition usable (s : state) (T : ty) (a : nat) : bool :=
  match s_objs s !! a with
  | Some (U, _) => (t_id U =? t_id T) && (t_const T || negb (t_const U))
  | None => false
  end.

(** the effect of a call; [Bad]: outside its contract, or it does not compile *)
Inductive outcome := Bad | Done (r : vrobs) (s : state) | Throws (e : exn).
Definition set_sobjs (s : state) (m : gmap nat (ty * V)) : state := State m (s_refs s) (s_calls s).
Definition set_srefs (s : state) (m : gmap nat (ty * nat)) : state := State (s_objs s) m (s_calls s).

Definition sstep (o : vrop) (s : state) : outcome :=
  match o with
  | RNewObj a T v =>
      match s_objs s !! a with None => Done BUnit (set_sobjs s (<[a:=(T, v)]> (s_objs s))) | Some _ => Bad end
  | RSetObj a v =>
      match s_objs s !! a with
      | Some (T, _) => if t_const T then Bad else Done BUnit (set_sobjs s (<[a:=(T, v)]> (s_objs s)))
      | None => Bad
      end
  | RReadObj a => match s_objs s !! a with Some (_, v) => Done (BVal v) s | None => Bad end
  | RDelObj a => match s_objs s !! a with Some _ => Done BUnit (set_sobjs s (delete a (s_objs s))) | None => Bad end
  | RBind x lv c a =>
      match s_refs s !! x, s_objs s !! a with
      | None, Some (T, _) =>
          match sbind lv (if c then add_const T else T) with
          | Some U => Done BUnit (set_srefs s (<[x:=(U, a)]> (s_refs s)))
          | None => Bad
          end
      | _, _ => Bad
      end
  | RCopy x y =>
      match s_refs s !! x, s_refs s !! y with
      | None, Some (T, a) => if usable s T a then Done BUnit (set_srefs s (<[x:=(T, a)]> (s_refs s))) else Bad
      | _, _ => Bad
      end
  | RAssign x y =>
      match s_refs s !! x, s_refs s !! y with
      | Some _, Some (T, a) => if usable s T a then Done BUnit (set_srefs s (<[x:=(T, a)]> (s_refs s))) else Bad
      | _, _ => Bad
      end
  | RDel x => match s_refs s !! x with Some _ => Done BUnit (set_srefs s (delete x (s_refs s))) | None => Bad end
  | RHolds x T =>
      match s_refs s !! x with
      | Some (U, _) => if decide (T ∈ alts) then Done (BBool (bool_decide (T = U))) s else Bad
      | None => Bad
      end
  | RGetIf x T =>
      match s_refs s !! x with
      | Some (U, a) => if decide (T ∈ alts) then Done (BPtr (if decide (T = U) then Some a else None)) s else Bad
      | None => Bad
      end
  | RGet x T =>
      match s_refs s !! x with
      | Some (U, a) =>
          if decide (T ∈ alts) then
            if decide (T = U) then if usable s T a then Done (BRef a) s else Bad else Throws BadVariantAccess
          else Bad
      | None => Bad
      end
  | RVisit x f =>
      match s_refs s !! x with
      | Some (T, a) =>
          match s_objs s !! a with
          | Some (U, v) =>
              if usable s T a then
                Done BUnit (State (if t_const T then s_objs s else <[a:=(U, f T v)]> (s_objs s))
                              (s_refs s) (s_calls s ++ [(T, a, v)]))
              else Bad
          | None => Bad
          end
      | None => Bad
      end
  end.
Fixpoint srun (os : list vrop) (s : state) : option (list vrobs * state) :=
  match os with
  | [] => Some ([], s)
  | o :: os' =>
      let go r s' := match srun os' s' with Some (rs, s'') => Some (r :: rs, s'') | None => None end in
      match sstep o s with Bad => None | Throws e => go (BThrew e) s | Done r s' => go r s' end
  end.
Definition init_state : state := State ∅ ∅ [].

(** what the program shows: every object's type and value, and what every variant_ref says
    about every alternative *)
Definition shows (w : world) (s : state) : Prop :=
  (∀ a, (λ o, (ob_ty o, ob_val o)) <$> objs w !! a = s_objs s !! a) ∧
  (∀ x, match s_refs s !! x with
        | None => refs w !! x = None
        | Some (T, a) => T ∈ alts ∧ ∀ U, U ∈ alts →
            vr_holds x U w = Ok (bool_decide (U = T)) w ∧
            vr_get_if x U w = Ok (if decide (U = T) then Some a else None) w
        end) ∧
  visits w = s_calls s.
Definition reachable (w : world) (s : state) : Prop :=
  ∃ os rs, srun os init_state = Some (rs, s) ∧ vrrun os init_world = Finished rs w.
End spec.
