(** What optional_ref is supposed to be: a reference to an object, or nothing. The state maps
    names of optional_refs to the object they refer to; objects are named by their location. *)
From stdpp Require Import prelude gmap.
From Verif Require Import Cpp OptionalRefModel.
Local Open Scope nat_scope.

Section spec.
Context `{C : ORefCfg}.

Record state := State {
  s_val : loc → option V;          (* the objects that exist, and their values *)
  s_opt : nat → bool;              (* the optionals that exist, empty or not *)
  s_ptr : nat → option (option loc);  (* the pointer variables *)
  s_ref : nat → option (option loc);  (* the optional_refs *)
}.
Definition upd {A B} `{EqDecision A} (f : A → B) (a : A) (b : B) : A → B := λ x, if decide (a = x) then b else f x.
Definition set_val (s : state) (l : loc) (v : option V) : state := State (upd (s_val s) l v) (s_opt s) (s_ptr s) (s_ref s).
Definition set_ref (s : state) (x : nat) (p : option (option loc)) : state := State (s_val s) (s_opt s) (s_ptr s) (upd (s_ref s) x p).

(** the object an argument of optional_ref(Optional &) designates: [None] if there is no such
    argument, [Some None] if it is empty or null *)
Definition designates (s : state) (a : source) : option (option loc) :=
  match a with
  | SOpt y => if s_opt s y then Some (match s_val s (LOpt y) with Some _ => Some (LOpt y) | None => None end) else None
  | SPtr p => s_ptr s p
  | SRef z => s_ref s z
  end.
(** the effect of a call; [copies]: a value is copied, which may throw *)
Inductive outcome := Bad | Done (r : orobs) (s : state) (copies : bool) | Throws (e : exn).

Definition sstep (o : orop) (s : state) : outcome :=
  match o with
  | RNewObj a v => match s_val s (LObj a) with None => Done BUnit (set_val s (LObj a) (Some v)) false | Some _ => Bad end
  | RDelObj a => match s_val s (LObj a) with Some _ => Done BUnit (set_val s (LObj a) None) false | None => Bad end
  | ROptSet y o =>
      let s' := set_val s (LOpt y) o in Done BUnit (State (s_val s') (upd (s_opt s) y true) (s_ptr s) (s_ref s)) false
  | ROptDel y =>
      if s_opt s y then
        let s' := set_val s (LOpt y) None in Done BUnit (State (s_val s') (upd (s_opt s) y false) (s_ptr s) (s_ref s)) false
      else Bad
  | RPtrSet p q => Done BUnit (State (s_val s) (s_opt s) (upd (s_ptr s) p (Some q)) (s_ref s)) false
  | RRead l => match s_val s l with Some v => Done (BVal v) s false | None => Bad end
  | RWrite l v => match s_val s l with Some _ => Done BUnit (set_val s l (Some v)) false | None => Bad end
  | RNew x => match s_ref s x with None => Done BUnit (set_ref s x (Some None)) false | Some _ => Bad end
  | RFromObj x l =>
      match s_ref s x, s_val s l with
      | None, Some _ => Done BUnit (set_ref s x (Some (Some l))) false
      | _, _ => Bad
      end
  | RFrom x a =>
      match s_ref s x, designates s a with
      | None, Some None => Done BUnit (set_ref s x (Some None)) false
      | None, Some (Some l) =>
          match s_val s l with Some _ => Done BUnit (set_ref s x (Some (Some l))) false | None => Bad end
      | _, _ => Bad
      end
  | RCopy x z =>
      match s_ref s x, s_ref s z with
      | None, Some p => Done BUnit (set_ref s x (Some p)) false
      | _, _ => Bad
      end
  | RAssign x z =>
      match s_ref s x, s_ref s z with
      | Some _, Some p => Done BUnit (set_ref s x (Some p)) false
      | _, _ => Bad
      end
  | RDel x => match s_ref s x with Some _ => Done BUnit (set_ref s x None) false | None => Bad end
  | RHas x =>
      match s_ref s x with
      | Some (Some _) => Done (BBool true) s false | Some None => Done (BBool false) s false | None => Bad
      end
  | RArrow x => match s_ref s x with Some p => Done (BPtr p) s false | None => Bad end
  | RStar x =>
      match s_ref s x with
      | Some (Some l) => match s_val s l with Some _ => Done (BRef l) s false | None => Bad end
      | _ => Bad
      end
  | RStarRead x =>
      match s_ref s x with
      | Some (Some l) => match s_val s l with Some v => Done (BVal v) s false | None => Bad end
      | _ => Bad
      end
  | RStarWrite x v =>
      match s_ref s x with
      | Some (Some l) => match s_val s l with Some _ => Done BUnit (set_val s l (Some v)) false | None => Bad end
      | _ => Bad
      end
  | RValue x =>
      match s_ref s x with
      | Some (Some l) => match s_val s l with Some _ => Done (BRef l) s false | None => Bad end
      | Some None => Throws BadOptionalAccess
      | None => Bad
      end
  | RValueOr x d =>
      match s_ref s x with
      | Some (Some l) => match s_val s l with Some v => Done (BVal v) s true | None => Bad end
      | Some None => Done (BVal d) s true
      | None => Bad
      end
  end.
(** a history; [k] counts copies *)
Fixpoint srun (os : list orop) (s : state) (k : nat) : option (list orobs * state * nat) :=
  match os with
  | [] => Some ([], s, k)
  | o :: os' =>
      let go r s' k' := match srun os' s' k' with Some (rs, s'', k'') => Some (r :: rs, s'', k'') | None => None end in
      match sstep o s with
      | Bad => None
      | Throws e => go (BThrew e) s k
      | Done r s' false => go r s' k
      | Done r s' true => if copy_fails k then go (BThrew ElementThrow) s (S k) else go r s' (S k)
      end
  end.
Definition init_state : state := State (λ _, None) (λ _, false) (λ _, None) (λ _, None).

(** the world is the state: the same objects with the same values, the same pointers, and each
    optional_ref is non-empty and refers to what the state says *)
Definition shows (w : world) (s : state) : Prop :=
  (∀ l, at_loc l w = s_val s l) ∧
  (∀ y, bool_decide (is_Some (opts w !! y)) = s_opt s y) ∧
  (∀ p, ptrs w !! p = s_ptr s p) ∧
  (∀ x, refs w !! x = s_ref s x).
End spec.
