(** What programs with views of strings see: a view is a section of a text, until the rules of C107 say that its
    characters may be elsewhere. *)
From stdpp Require Import prelude gmap.
From Coq Require Import Init.Byte.
From Verif Require Import Cpp StringModel StringSpec StringStableSpec StringViewModel.
Local Open Scope nat_scope.

Section spec.
Context `{C : StrCfg}.
Notation state := (gmap nat (list char)).
(** string, first index, length; views that may dangle are left out *)
Notation sections := (gmap nat (nat * nat * nat)).

(** the exceptions to the rules, see C107 *)
Definition excepted (o : sop) (m : state) (c x : nat) : bool :=
  match o with
  | SCopyAssign y z => negb (y =? z) && (x =? y) && (c <? slen m x + slen m z)
  | SAssignRange y r | SReplaceRange y _ _ r => (x =? y) && (c <? slen m x + rlen r)
  | SAssignInput y _ => x =? y
  | _ => false
  end.
(** the section after the call; characters that are no longer part of the text cannot be in it *)
Definition follow_section (inl : nat → bool) (cap : nat → nat) (o : sop) (m m' : state) (g : nat * nat * nat) : option (nat * nat * nat) :=
  let '(x, lo, len) := g in
  if excepted o m (cap x) x then None
  else
    match stands inl o m m' (cap x) x with
    | None => None
    | Some y => match m' !! y with Some l => if decide (lo + len ≤ length l) then Some (y, lo, len) else None | None => None end
    end.
(** the length of a text as a C string *)
Definition c_len (l : list char) : nat :=
  match list_find (λ c, Byte.eqb c NUL = true) l with Some (i, _) => i | None => length l end.

Inductive tout := TBad | TDone (r : tobs) (m : state) (g : sections) | TThrows (e : exn).
(** [cap x] is the capacity of string [x] *)
Definition tstep (inl : nat → bool) (cap : nat → nat) (p : top) (m : state) (g : sections) : tout :=
  match p with
  | TCall o =>
      match sstep inl o m with
      | Bad => TBad
      | Done r m' => TDone (TObs r) m' (omap (follow_section inl cap o m m') g)
      | Throws e => TThrows e
      end
  | TView k x => match m !! x with Some l => TDone TUnit m (<[k:=(x, 0, length l)]> g) | None => TBad end
  | TCStr k x => match m !! x with Some l => TDone TUnit m (<[k:=(x, 0, c_len l)]> g) | None => TBad end
  | TSubstr k j o n =>
      match g !! j with
      | Some (x, lo, len) => if decide (o + n ≤ len) then TDone TUnit m (<[k:=(x, lo + o, n)]> g) else TBad
      | None => TBad
      end
  | TPrefix k n =>
      match g !! k with
      | Some (x, lo, len) => if decide (n ≤ len) then TDone TUnit m (<[k:=(x, lo + n, len - n)]> g) else TBad
      | None => TBad
      end
  | TSuffix k n =>
      match g !! k with
      | Some (x, lo, len) => if decide (n ≤ len) then TDone TUnit m (<[k:=(x, lo, len - n)]> g) else TBad
      | None => TBad
      end
  | TIndex k i =>
      match g !! k with
      | Some (x, lo, len) =>
          if decide (i < len) then match m !! x ≫= (λ l, l !! (lo + i)) with Some v => TDone (TVal v) m g | None => TBad end else TBad
      | None => TBad
      end
  | TAt k i =>
      match g !! k with
      | Some (x, lo, len) =>
          if decide (i < len) then match m !! x ≫= (λ l, l !! (lo + i)) with Some v => TDone (TVal v) m g | None => TBad end
          else TThrows OutOfRange
      | None => TBad
      end
  | TSize k => match g !! k with Some (x, lo, len) => TDone (TNat len) m g | None => TBad end
  | TAll k =>
      match g !! k with
      | Some (x, lo, len) => match m !! x with Some l => TDone (TText (take len (drop lo l))) m g | None => TBad end
      | None => TBad
      end
  end.

(** the capacities a program sees *)
Definition capacity (w : world) (x : nat) : nat := match str_capacity x w with Ok c _ => c | _ => 0 end.
(** every call is made within its contract, and every view is used while it is a section of a text *)
Fixpoint trespects (ps : list top) (s : tworld) (m : state) (g : sections) : Prop :=
  match ps with
  | [] => True
  | p :: ps' =>
      match tstep (inline (strings s)) (capacity (strings s)) p m g with
      | TBad => False
      | TDone _ m' g' =>
          match texec p s with Ok _ s' => trespects ps' s' m' g' | Exn _ s' => trespects ps' s' m g | _ => True end
      | TThrows _ => match texec p s with Ok _ s' | Exn _ s' => trespects ps' s' m g | _ => True end
      end
  end.
(** the results are those of the program on plain texts and their sections; calls that report a failure have no
    effect *)
Inductive treplay : list top → list tobs → state → sections → state → Prop :=
  | tr_nil m g : treplay [] [] m g m
  | tr_done inl cap p ps r rs m g m1 g1 m2 : tstep inl cap p m g = TDone r m1 g1 → treplay ps rs m1 g1 m2 → treplay (p :: ps) (r :: rs) m g m2
  | tr_throws inl cap p ps e rs m g m2 : tstep inl cap p m g = TThrows e → treplay ps rs m g m2 → treplay (p :: ps) (TThrew e :: rs) m g m2
  | tr_failed o ps e rs m g m2 : acquires o = true → e ∈ [BadAlloc; LengthError] →
      treplay ps rs m g m2 → treplay (TCall o :: ps) (TThrew e :: rs) m g m2.
End spec.
