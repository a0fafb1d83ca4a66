(** What string_ref is supposed to be: a contiguous part of an array of characters. *)
From stdpp Require Import prelude gmap.
From Coq Require Import ZArith.
From Coq Require Strings.Byte.
From Verif Require Import Cpp IterModel ViewModel StringRefModel.
From Verif Require StringOrder StringSpec.
From Verif Require Export ArrayRefSpec.
Local Open Scope Z_scope.

Global Instance char_eq_dec : EqDecision char := Byte.byte_eq_dec.
(** the number of characters before the first null character *)
Inductive zlength : list char → nat → Prop :=
  | zlength_intro a b : NUL ∉ a → zlength (a ++ NUL :: b) (length a).
Fixpoint zlen (l : list char) : option nat :=
  match l with [] => None | c :: l' => if decide (c = NUL) then Some 0%nat else S <$> zlen l' end.

Section spec.
Context `{C : ViewCfg} `{H : StringOrder.HashFn}.
Notation state := (state char).

Inductive outcome := Bad | Done (r : sobs) (s : state) | Throws (e : exn).
Definition make (s : state) (x : nat) (v : option part) : outcome :=
  match s_view s !! x, v with None, Some v => Done BUnit (set_view s x v) | _, _ => Bad end.
Definition look (s : state) (x : nat) (f : part → outcome) : outcome :=
  match view_of s x with Some v => f v | None => Bad end.
Definition ref_to (s : state) (p : option (pointer nat)) : outcome :=
  match p with Some p => Done (BPtr p) s | None => Bad end.
(** the array from [p] on *)
Definition tail_at (s : state) (p : pointer nat) : option (list char) :=
  match p with
  | Null => None
  | At b o =>
      match s_arr s !! b with
      | Some l => if decide (0 ≤ o ≤ Z.of_nat (length l)) then Some (drop (Z.to_nat o) l) else None
      | None => None
      end
  end.
Definition change (s : state) (x : nat) (v : option part) : outcome :=
  match v with Some v => Done BUnit (set_view s x v) | None => Bad end.
Definition ask (s : state) (x y : nat) (f : list char → list char → bool) : outcome :=
  look s x (λ v, look s y (λ u, match elems s v, elems s u with Some a, Some b => Done (BBool (f a b)) s | _, _ => Bad end)).
(** lexicographic order of unsigned characters, and equality *)
Fixpoint below (a b : list char) : bool :=
  match a, b with
  | _, [] => false
  | [], _ :: _ => true
  | x :: a', y :: b' => (uchar x <? uchar y)%N || ((uchar x =? uchar y)%N && below a' b')
  end.
Definition same (a b : list char) : bool := bool_decide (a = b).

Definition sstep (o : sop) (s : state) : outcome :=
  match o with
  | SNewArr b l =>
      match s_arr s !! b with
      | None => if decide (Z.of_nat (length l) ≤ diff_max) then Done BUnit (State (<[b:=l]> (s_arr s)) (s_view s)) else Bad
      | Some _ => Bad
      end
  | SDelArr b => match s_arr s !! b with Some _ => Done BUnit (State (delete b (s_arr s)) (s_view s)) | None => Bad end
  | SRead p =>
      match p with
      | At b i =>
          match s_arr s !! b with
          | Some l => if decide (0 ≤ i) then match l !! Z.to_nat i with Some v => Done (BVal v) s | None => Bad end else Bad
          | None => Bad
          end
      | Null => Bad
      end
  | SWrite p v =>
      match p with
      | At b i =>
          match s_arr s !! b with
          | Some l =>
              if decide (0 ≤ i < Z.of_nat (length l)) then Done BUnit (State (<[b:=<[Z.to_nat i:=v]> l]> (s_arr s)) (s_view s))
              else Bad
          | None => Bad
          end
      | Null => Bad
      end
  | SNew x => make s x (Some PNone)
  | SNewCstr x p =>
      match tail_at s p with
      | Some l => match zlen l with Some n => make s x (from_to s p (Z.of_nat n)) | None => Bad end
      | None => Bad
      end
  | SNewCount x p n => make s x (from_to s p n)
  | SNewView x v => make s x (from_to s v.1 v.2)
  | SCopy x y => make s x (s_view s !! y)
  | SAssign x y =>
      match s_view s !! x, s_view s !! y with Some _, Some v => Done BUnit (set_view s x v) | _, _ => Bad end
  | SDel x => match s_view s !! x with Some _ => Done BUnit (State (s_arr s) (delete x (s_view s))) | None => Bad end
  | SData x | SBegin x | SRend x => look s x (λ v, Done (BPtr (start v)) s)
  | SEnd x | SRbegin x =>
      look s x (λ v, Done (BPtr (match v with PNone => Null | PSub b o n => At b (o + n) end)) s)
  | SSize x => look s x (λ v, Done (BNum (count v)) s)
  | SEmpty x => look s x (λ v, Done (BBool (bool_decide (count v = 0))) s)
  | SFront x => look s x (λ v, ref_to s (place v 0))
  | SBack x => look s x (λ v, ref_to s (place v (count v - 1)))
  | SIndex x i => look s x (λ v, ref_to s (place v i))
  | SAt x i =>
      look s x (λ v, if decide (0 ≤ i) then (if decide (i < count v) then ref_to s (place v i) else Throws OutOfRange) else Bad)
  | SRemovePrefix x n => look s x (λ v, change s x (sub v n (count v - n)))
  | SRemoveSuffix x n => look s x (λ v, if decide (0 ≤ n) then change s x (sub v 0 (count v - n)) else Bad)
  | SSubstr z x o => look s x (λ v, make s z (sub v o (count v - o)))
  | SSubstrN z x o n => look s x (λ v, make s z (sub v o n))
  | SView x => look s x (λ v, Done (BView (start v, count v)) s)
  | SEq x y => ask s x y same
  | SNe x y => ask s x y (λ a b, negb (same a b))
  | SLt x y => ask s x y below
  | SGt x y => ask s x y (λ a b, below b a)
  | SLe x y => ask s x y (λ a b, below a b || same a b)
  | SGe x y => ask s x y (λ a b, below b a || same a b)
  | SHash x =>
      look s x (λ v, match elems s v with Some l => Done (BHash (StringOrder.hash_bytes l)) s | None => Bad end)
  end.
Fixpoint srun (os : list sop) (s : state) : option (list sobs * state) :=
  match os with
  | [] => Some ([], s)
  | o :: os' =>
      let go r s' := match srun os' s' with Some (rs, s'') => Some (r :: rs, s'') | None => None end in
      match sstep o s with Bad => None | Throws e => go (BThrew e) s | Done r s' => go r s' end
  end.
Definition reachable (w : world char) (s : state) : Prop :=
  ∃ os rs, srun os init_state = Some (rs, s) ∧ srrun os init_world = Finished rs w.
End spec.
