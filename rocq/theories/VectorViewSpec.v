(** What programs with views of vectors see: a view is a section of a vector, until the rules for std::vector say
    that one of its elements may be elsewhere. *)
From stdpp Require Import prelude gmap.
From Verif Require Import Cpp VectorModel VectorSpec VectorStableSpec VectorViewModel.
Local Open Scope nat_scope.

Section spec.
Context `{C : VecCfg}.
Notation state := (gmap nat (list V)).
(** vector, first index, length; views that may dangle are left out *)
Notation sections := (gmap nat (nat * nat * nat)).

(** the call asks for more elements than there are: by the standard views stay valid within the capacity, with
    ptl::vector they never do (C106) *)
Definition enlarged (o : vop) (x n : nat) : bool :=
  match o with VResize y k | VResizeFill y k _ => bool_decide (y = x) && (n <? k) | _ => false end.
(** the section after the call *)
Definition follow_section (cap : nat → nat) (o : vop) (m : state) (g : nat * nat * nat) : option (nat * nat * nat) :=
  let '(x, lo, len) := g in
  match m !! x with
  | None => None
  | Some l =>
      if enlarged o x (length l) then None
      else
        match heir o m (length l) (cap x) x lo with
        | None => None
        | Some y => if forallb (λ i, bool_decide (heir o m (length l) (cap x) x i = Some y)) (seq lo len) then Some (y, lo, len) else None
        end
  end.

Inductive pout := PBad | PDone (r : pobs) (m : state) (g : sections) | PThrows (e : exn).
(** [cap x] is the capacity of vector [x] *)
Definition pstep (cap : nat → nat) (p : pop) (m : state) (g : sections) : pout :=
  match p with
  | PCall o =>
      match sstep o m with
      | Bad => PBad
      | Done r m' => PDone (PObs r) m' (omap (follow_section cap o m) g)
      | Throws e => PThrows e
      end
  | PView k x => match m !! x with Some l => PDone PUnit m (<[k:=(x, 0, length l)]> g) | None => PBad end
  | PSub k j o n =>
      match g !! j with
      | Some (x, lo, len) => if decide (o + n ≤ len) then PDone PUnit m (<[k:=(x, lo + o, n)]> g) else PBad
      | None => PBad
      end
  | PLast k j n =>
      match g !! j with
      | Some (x, lo, len) => if decide (n ≤ len) then PDone PUnit m (<[k:=(x, lo + len - n, n)]> g) else PBad
      | None => PBad
      end
  | PIndex k i =>
      match g !! k with
      | Some (x, lo, len) =>
          if decide (i < len) then match m !! x ≫= (λ l, l !! (lo + i)) with Some v => PDone (PVal v) m g | None => PBad end else PBad
      | None => PBad
      end
  | PSet k i a =>
      match g !! k with
      | Some (x, lo, len) =>
          if decide (i < len) then match m !! x with Some l => PDone PUnit (<[x:=<[lo + i:=a]> l]> m) g | None => PBad end else PBad
      | None => PBad
      end
  | PAt k i =>
      match g !! k with
      | Some (x, lo, len) =>
          if decide (i < len) then match m !! x ≫= (λ l, l !! (lo + i)) with Some v => PDone (PVal v) m g | None => PBad end
          else PThrows OutOfRange
      | None => PBad
      end
  | PSize k => match g !! k with Some (x, lo, len) => PDone (PNat len) m g | None => PBad end
  | PAll k =>
      match g !! k with
      | Some (x, lo, len) => match m !! x with Some l => PDone (PList (take len (drop lo l))) m g | None => PBad end
      | None => PBad
      end
  end.

(** the capacities a program sees *)
Definition capacity (w : world) (x : nat) : nat := match vec_capacity x w with Ok c _ => c | _ => 0 end.
(** every call is made within its contract, and every view is used while it is a section of a vector *)
Fixpoint prespects (ps : list pop) (s : pworld) (m : state) (g : sections) : Prop :=
  match ps with
  | [] => True
  | p :: ps' =>
      match pstep (capacity (vectors s)) p m g with
      | PBad => False
      | PDone _ m' g' =>
          match pexec p s with Ok _ s' => prespects ps' s' m' g' | Exn _ s' => prespects ps' s' m g | _ => True end
      | PThrows _ => match pexec p s with Ok _ s' | Exn _ s' => prespects ps' s' m g | _ => True end
      end
  end.
(** the results are those of the program on plain sequences and their sections; calls that report a failure have no
    effect *)
Inductive preplay : list pop → list pobs → state → sections → state → Prop :=
  | pr_nil m g : preplay [] [] m g m
  | pr_done cap p ps r rs m g m1 g1 m2 : pstep cap p m g = PDone r m1 g1 → preplay ps rs m1 g1 m2 → preplay (p :: ps) (r :: rs) m g m2
  | pr_throws cap p ps e rs m g m2 : pstep cap p m g = PThrows e → preplay ps rs m g m2 → preplay (p :: ps) (PThrew e :: rs) m g m2
  | pr_failed o ps e rs m g m2 : acquires o = true → e ∈ [BadAlloc; LengthError; ElementThrow] →
      preplay ps rs m g m2 → preplay (PCall o :: ps) (PThrew e :: rs) m g m2.
End spec.
