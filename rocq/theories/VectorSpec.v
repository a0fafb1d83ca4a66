(** What a vector is supposed to be: a finite sequence. The state is a finite map from
    vector names to sequences; [sstep] gives the effect of a call, [Bad] when the caller
    breaks the documented precondition of the call. No capacity, buffer or element
    lifetime occurs here. *)
From stdpp Require Import prelude gmap.
From Coq Require Import ZArith.
From Verif Require Import Cpp VectorModel.
Local Open Scope nat_scope.

Section spec.
Context `{C : VecCfg}.
Notation state := (gmap nat (list V)).

Inductive outcome := Bad | Done (r : vobs) (m : state) | Throws (e : exn).

(** the value of an argument *)
Definition sarg (m : state) (a : carg) : option V :=
  match a with
  | CVal v => Some v
  | CElem y i => match m !! y with Some l => l !! i | None => None end
  end.
(** the values of a range; std::distance must be representable as std::ptrdiff_t *)
Definition srange (m : state) (r : range) : option (list V) :=
  match r with
  | RVals l => if decide (Z.of_nat (length l) < 2 ^ (Z.of_nat wbits - 1))%Z then Some l else None
  | RElems y i n =>
      match m !! y with
      | Some l => if decide (i + n ≤ length l) then Some (take n (drop i l)) else None
      | None => None
      end
  end.
Definition insert_at (i : nat) (vs l : list V) : list V := take i l ++ vs ++ drop i l.
(** size() + n is representable as std::size_t *)
Definition countable (l : list V) (n : nat) : Prop := (Z.of_nat (length l) + Z.of_nat n < 2 ^ Z.of_nat wbits)%Z.
Global Instance countable_dec l n : Decision (countable l n).
Proof. unfold countable. apply _. Defined.

(** a new vector [x] holding [l] *)
Definition snew (m : state) (x : nat) (l : option (list V)) : outcome :=
  match m !! x, l with None, Some l => Done OUnit (<[x:=l]> m) | _, _ => Bad end.
Definition semplace (m : state) (x i : nat) (a : earg) : outcome :=
  match a with
  | ECopy a =>
      match m !! x, sarg m a with
      | Some l, Some v =>
          if decide (i ≤ length l) then Done (ONat i) (<[x:=insert_at i [v] l]> m) else Bad
      | _, _ => Bad
      end
  | EMove y j =>
      match m !! y with
      | Some ly =>
          match ly !! j with
          | Some v =>
              let m := <[y:=<[j:=moved v]> ly]> m in
              match m !! x with
              | Some l => if decide (i ≤ length l) then Done (ONat i) (<[x:=insert_at i [v] l]> m) else Bad
              | None => Bad
              end
          | None => Bad
          end
      | None => Bad
      end
  end.
Definition sget (m : state) (x : nat) (i : list V → nat) : outcome :=
  match m !! x with
  | Some l => match l !! i l with Some v => Done (OVal v) m | None => Bad end
  | None => Bad
  end.

Definition sstep (o : vop) (m : state) : outcome :=
  match o with
  | VNew x => snew m x (Some [])
  | VNewRange x r => snew m x (srange m r)
  | VNewCopy x y => snew m x (m !! y)
  | VNewMove x y =>
      match m !! x, m !! y with None, Some l => Done OUnit (<[x:=l]> (<[y:=[]]> m)) | _, _ => Bad end
  | VNewInput x l => snew m x (Some l)
  | VNewCount x n => snew m x (Some (replicate n dflt))
  | VNewFill x n a => snew m x (replicate n <$> sarg m a)
  | VDestroy x => match m !! x with Some _ => Done OUnit (delete x m) | None => Bad end
  | VCopyAssign x y =>
      match m !! x, m !! y with Some _, Some l => Done OUnit (<[x:=l]> m) | _, _ => Bad end
  | VMoveAssign x y =>
      match m !! x, m !! y with
      | Some _, Some l => Done OUnit (if decide (x = y) then m else <[x:=l]> (<[y:=[]]> m))
      | _, _ => Bad
      end
  | VAssignRange x r =>
      match m !! x, srange m r with Some _, Some vs => Done OUnit (<[x:=vs]> m) | _, _ => Bad end
  | VAssignFill x n a =>
      match m !! x, sarg m a with
      | Some l, Some v => if decide (countable l n) then Done OUnit (<[x:=replicate n v]> m) else Bad
      | _, _ => Bad
      end
  | VAssignInput x l => match m !! x with Some _ => Done OUnit (<[x:=l]> m) | None => Bad end
  | VPushBack x a =>
      match m !! x with Some l => semplace m x (length l) a | None => Bad end
  | VEmplace x i a => semplace m x i a
  | VInsertFill x i n a =>
      match m !! x, sarg m a with
      | Some l, Some v =>
          if decide (i ≤ length l ∧ countable l n)
          then Done (ONat i) (<[x:=insert_at i (replicate n v) l]> m) else Bad
      | _, _ => Bad
      end
  | VInsertRange x i r =>
      match m !! x, srange m r with
      | Some l, Some vs => if decide (i ≤ length l) then Done (ONat i) (<[x:=insert_at i vs l]> m) else Bad
      | _, _ => Bad
      end
  | VInsertInput x i vs =>
      match m !! x with
      | Some l => if decide (i ≤ length l) then Done (ONat i) (<[x:=insert_at i vs l]> m) else Bad
      | _ => Bad
      end
  | VPopBack x =>
      match m !! x with
      | Some l => if decide (l = []) then Bad else Done OUnit (<[x:=take (length l - 1) l]> m)
      | None => Bad
      end
  | VErase x i j =>
      match m !! x with
      | Some l =>
          if decide (i ≤ j ∧ j ≤ length l) then
            (* an empty range should change nothing; what the code does instead to the elements
               from [i] on is assign each of them to itself as an rvalue, see C28 *)
            Done (ONat i) (<[x:=take i l ++ (if decide (i = j) then selfmove <$> drop j l else drop j l)]> m)
          else Bad
      | None => Bad
      end
  | VErase1 x i =>
      match m !! x with
      | Some l => if decide (i < length l) then Done (ONat i) (<[x:=take i l ++ drop (S i) l]> m) else Bad
      | None => Bad
      end
  | VReserve x n => match m !! x with Some _ => Done OUnit m | None => Bad end
  | VResize x n =>
      match m !! x with
      | Some l => Done OUnit (<[x:=take n l ++ replicate (n - length l) dflt]> m)
      | None => Bad
      end
  | VResizeFill x n a =>
      match m !! x, sarg m a with
      | Some l, Some v => Done OUnit (<[x:=take n l ++ replicate (n - length l) v]> m)
      | _, _ => Bad
      end
  | VShrink x => match m !! x with Some _ => Done OUnit m | None => Bad end
  | VClear x => match m !! x with Some _ => Done OUnit (<[x:=[]]> m) | None => Bad end
  | VSwap x y =>
      match m !! x, m !! y with
      | Some l, Some k => Done OUnit (<[x:=k]> (<[y:=l]> m))
      | _, _ => Bad
      end
  | VSet x i v =>
      match m !! x with
      | Some l => if decide (i < length l) then Done OUnit (<[x:=<[i:=v]> l]> m) else Bad
      | None => Bad
      end
  | VAt x i =>
      match m !! x with
      | Some l => match l !! i with Some v => Done (OVal v) m | None => Throws OutOfRange end
      | None => Bad
      end
  | VIndex x i => sget m x (λ _, i)
  | VFront x => sget m x (λ _, 0)
  | VBack x => sget m x (λ l, length l - 1)
  | VSize x => match m !! x with Some l => Done (ONat (length l)) m | None => Bad end
  | VEmpty x => match m !! x with Some l => Done (OBool (bool_decide (l = []))) m | None => Bad end
  end.

(** The largest number of elements a call may ask memory for. *)
Definition slen (m : state) (x : nat) : nat := match m !! x with Some l => length l | None => 0 end.
Definition rlen (m : state) (r : range) : nat := match r with RVals l => length l | RElems _ _ n => n end.
Definition grown (s n : nat) : nat := s + s `max` n.
Definition demand (o : vop) (m : state) : nat :=
  match o with
  | VNewRange _ r | VAssignRange _ r => rlen m r
  | VNewCopy _ y | VCopyAssign _ y => slen m y
  | VNewInput _ l | VAssignInput _ l => 2 * length l
  | VNewCount _ n | VNewFill _ n _ | VAssignFill _ n _ | VReserve _ n | VResize _ n | VResizeFill _ n _ => n
  | VPushBack x _ | VEmplace x _ _ => grown (slen m x) 1
  | VInsertFill x _ n _ => grown (slen m x) n
  | VInsertRange x _ r => grown (slen m x) (rlen m r)
  | VInsertInput x _ l => (2 * length l) `max` grown (slen m x) (length l)
  | _ => 0
  end.

(** Calls that acquire resources, and hence may report failure. *)
Definition acquires (o : vop) : bool :=
  match o with
  | VNewRange _ _ | VAssignRange _ _ | VNewCopy _ _ | VCopyAssign _ _ | VNewInput _ _ | VAssignInput _ _
  | VNewCount _ _ | VNewFill _ _ _ | VAssignFill _ _ _ | VReserve _ _ | VResize _ _ | VResizeFill _ _ _
  | VPushBack _ _ | VEmplace _ _ _ | VInsertFill _ _ _ _ | VInsertRange _ _ _ | VInsertInput _ _ _ => true
  | _ => false
  end.

(** Why a call may throw [e]: an allocation or a construction between the two given
    counts failed, or the demand exceeds max_size(). *)
Definition explained (o : vop) (m : state) (w w' : world) (e : exn) : Prop :=
  acquires o = true ∧
  match e with
  | BadAlloc => ∃ k, nalloc w ≤ k < nalloc w' ∧ alloc_fails k = true
  | ElementThrow => ∃ k, nctor w ≤ k < nctor w' ∧ ctor_fails k = true
  | LengthError => max_cap < demand o m
  | _ => False
  end.

(** The caller's side of a history: every call is made within its contract, the state being
    what the calls that did not throw have made of it. (The execution is consulted only to
    see which calls threw.) *)
Fixpoint respects (os : list vop) (w : world) (m : state) : Prop :=
  match os with
  | [] => True
  | o :: os' =>
      match sstep o m with
      | Bad => False
      | Done _ m' =>
          match vexec o w with
          | Ok _ w' => respects os' w' m' | Exn _ w' => respects os' w' m | _ => True
          end
      | Throws _ => match vexec o w with Ok _ w' | Exn _ w' => respects os' w' m | _ => True end
      end
  end.

(** [replay os rs m m']: the results [rs] are those of the calls [os] on plain sequences,
    leading from [m] to [m'], calls that report an exception having no effect. *)
Inductive replay : list vop → list vobs → state → state → Prop :=
  | replay_nil m : replay [] [] m m
  | replay_done o os r rs m m1 m2 :
      sstep o m = Done r m1 → replay os rs m1 m2 → replay (o :: os) (r :: rs) m m2
  | replay_throws o os e rs m m2 :
      sstep o m = Throws e → replay os rs m m2 → replay (o :: os) (OThrew e :: rs) m m2
  | replay_failed o os e rs m m2 :
      acquires o = true → e ∈ [BadAlloc; LengthError; ElementThrow] →
      replay os rs m m2 → replay (o :: os) (OThrew e :: rs) m m2.

(** the deterministic run, when nothing fails *)
Fixpoint srun (os : list vop) (m : state) : option (list vobs * state) :=
  match os with
  | [] => Some ([], m)
  | o :: os' =>
      match sstep o m with
      | Bad => None
      | Done r m' => match srun os' m' with Some (rs, m'') => Some (r :: rs, m'') | None => None end
      | Throws e => match srun os' m with Some (rs, m'') => Some (OThrew e :: rs, m'') | None => None end
      end
  end.
Fixpoint fits (os : list vop) (m : state) : Prop :=
  match os with
  | [] => True
  | o :: os' =>
      demand o m ≤ max_cap ∧
      match sstep o m with Done _ m' => fits os' m' | Throws _ => fits os' m | Bad => True end
  end.

(** What a program can see of the vectors: size() and operator[]. *)
Definition shows (w : world) (m : state) : Prop :=
  ∀ x, match m !! x with
       | Some l => vec_size x w = Ok (length l) w ∧ ∀ i v, l !! i = Some v → vec_index x i w = Ok v w
       | None => objs w !! x = None
       end.
(** states reached by contract-respecting histories *)
Definition reachable (w : world) (m : state) : Prop :=
  ∃ os rs, respects os init_world ∅ ∧ vrun os init_world = Finished rs w ∧ replay os rs ∅ m.

(** the vectors whose elements a call may change *)
Definition earg_writes (a : earg) : list nat := match a with ECopy _ => [] | EMove y _ => [y] end.
Definition writes (o : vop) : list nat :=
  match o with
  | VNew x | VNewRange x _ | VNewCopy x _ | VNewInput x _ | VNewCount x _ | VNewFill x _ _ | VDestroy x
  | VCopyAssign x _ | VAssignRange x _ | VAssignFill x _ _ | VAssignInput x _
  | VInsertFill x _ _ _ | VInsertRange x _ _ | VInsertInput x _ _ | VPopBack x | VErase x _ _ | VErase1 x _
  | VResize x _ | VResizeFill x _ _ | VClear x | VSet x _ _ => [x]
  | VNewMove x y | VMoveAssign x y | VSwap x y => [x; y]
  | VPushBack x a | VEmplace x _ a => x :: earg_writes a
  | VReserve _ _ | VShrink _ | VAt _ _ | VIndex _ _ | VFront _ | VBack _ | VSize _ | VEmpty _ => []
  end.

(** for calls that put elements into an existing vector: which one, and how many elements;
    pop_back, erase and clear put none *)
Definition puts (o : vop) (m : state) : option (nat * nat) :=
  match o with
  | VPushBack x _ | VEmplace x _ _ => Some (x, 1)
  | VInsertFill x _ n _ | VAssignFill x n _ => Some (x, n)
  | VInsertRange x _ r | VAssignRange x r => Some (x, rlen m r)
  | VPopBack x | VErase x _ _ | VErase1 x _ | VClear x => Some (x, 0)
  | _ => None
  end.
End spec.
