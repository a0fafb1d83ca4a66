(** What a string is supposed to be: a finite sequence of characters. The state is a finite
    map from string names to sequences; [sstep] gives the effect of a call, [Bad] when the
    caller breaks the contract of the call. No buffer, capacity or terminator occurs here. *)
From stdpp Require Import prelude gmap.
From Coq Require Import NArith ZArith.
From Verif Require Import Cpp StringModel.
Local Open Scope nat_scope.

(** The lexicographic order of characters as unsigned bytes: a proper prefix comes first,
    otherwise the first difference decides. *)
Definition lex_lt (a b : list char) : Prop := ∃ p,
  (a = p ∧ ∃ c s, b = p ++ c :: s) ∨
  (∃ x y s t, a = p ++ x :: s ∧ b = p ++ y :: t ∧ (Byte.to_N x < Byte.to_N y)%N).

Section spec.
Context `{C : StrCfg}.
Notation state := (gmap nat (list char)).

Inductive outcome := Bad | Done (r : sobs) (m : state) | Throws (e : exn).

(** the characters of a range, [None] standing for one whose iterator throws; std::distance
    must be representable as std::ptrdiff_t *)
Definition srange (m : state) (r : range) : option (list (option char)) :=
  match r with
  | RExt l => if decide (Z.of_nat (length l) < 2 ^ (Z.of_nat wbits - 1))%Z then Some l else None
  | RSub y i n =>
      match m !! y with
      | Some l => if decide (i + n ≤ length l) then Some (Some <$> take n (drop i l)) else None
      | None => None
      end
  end.
Definition rlen (r : range) : nat := match r with RExt l => length l | RSub _ _ n => n end.
(** the characters, if none throws *)
Fixpoint values (l : list (option char)) : option (list char) :=
  match l with
  | [] => Some []
  | None :: _ => None
  | Some c :: l' => match values l' with Some cs => Some (c :: cs) | None => None end
  end.
Definition svalues (m : state) (r : range) : option (list char) :=
  match srange m r with Some l => values l | None => None end.
(** [i, j) replaced by [cs] *)
Definition splice (i j : nat) (cs l : list char) : list char := take i l ++ cs ++ drop j l.
(** [n] characters, and one inline footprint, are representable as std::size_t; see C37 for
    what happens otherwise *)
Definition roomy (n : nat) : Prop := (Z.of_nat n + Z.of_nat footprint <= 2 ^ Z.of_nat wbits)%Z.
Global Instance roomy_dec n : Decision (roomy n).
Proof. unfold roomy. apply _. Defined.

(** [n] is representable as std::size_t *)
Definition countable (n : nat) : Prop := (Z.of_nat n < 2 ^ Z.of_nat wbits)%Z.
Global Instance countable_dec n : Decision (countable n).
Proof. unfold countable. apply _. Defined.

(** a new string [x] holding [l] *)
Definition snew (m : state) (x : nat) (l : option (list char)) : outcome :=
  match m !! x, l with None, Some l => Done OUnit (<[x:=l]> m) | _, _ => Bad end.
(** [x] gets [f l] where [l] is its old value *)
Definition supd (m : state) (x : nat) (r : sobs) (f : list char → option (list char)) : outcome :=
  match m !! x with
  | Some l => match f l with Some l' => Done r (<[x:=l']> m) | None => Bad end
  | None => Bad
  end.
(** the same from input iterators *)
Definition sinput (m : state) (x : nat) (r : sobs) (i j : list char → nat) (l : list (option char)) : outcome :=
  match m !! x with
  | Some k =>
      if decide (i k ≤ j k ≤ length k) then
        match values l with
        | Some cs => Done r (<[x:=splice (i k) (j k) cs k]> m)
        | None => Throws ElementThrow
        end
      else Bad
  | None => Bad
  end.
Definition sget (m : state) (x : nat) (i : list char → nat) : outcome :=
  match m !! x with
  | Some l => match l !! i l with Some v => Done (OChar v) m | None => Bad end
  | None => Bad
  end.
Definition sreplace (i j : nat) (cs : option (list char)) (ok : list char → Prop) `{∀ l, Decision (ok l)}
    (l : list char) : option (list char) :=
  match cs with
  | Some cs => if decide ((i ≤ j ≤ length l) ∧ ok l) then Some (splice i j cs l) else None
  | None => None
  end.

(** [keeps y]: does string [y] keep its characters when it is moved from? *)
Definition smoved (keeps : nat → bool) (y : nat) (l : list char) : list char := if keeps y then l else [].

Definition sstep (keeps : nat → bool) (o : sop) (m : state) : outcome :=
  match o with
  | SNew x => snew m x (Some [])
  | SNewRange x r =>
      match srange m r with
      | Some l =>
          match m !! x with
          | None => match values l with Some cs => Done OUnit (<[x:=cs]> m) | None => Throws ElementThrow end
          | Some _ => Bad
          end
      | None => Bad
      end
  | SNewInput x l =>
      match m !! x with
      | None => match values l with Some cs => Done OUnit (<[x:=cs]> m) | None => Throws ElementThrow end
      | Some _ => Bad
      end
  | SNewCopy x y => snew m x (m !! y)
  | SNewMove x y =>
      match m !! x, m !! y with
      | None, Some l => Done OUnit (<[x:=l]> (<[y:=smoved keeps y l]> m))
      | _, _ => Bad
      end
  | SNewFill x n c => snew m x (if decide (roomy n) then Some (replicate n c) else None)
  | SDestroy x => match m !! x with Some _ => Done OUnit (delete x m) | None => Bad end
  | SConcat x l r =>
      match svalues m l, svalues m r with
      | Some a, Some b => snew m x (if decide (roomy (length a + length b)) then Some (a ++ b) else None)
      | _, _ => Bad
      end
  | SCopyAssign x y => match m !! y with Some l => supd m x OUnit (λ _, Some l) | None => Bad end
  | SMoveAssign x y =>
      match m !! x, m !! y with
      | Some _, Some l => Done OUnit (if decide (x = y) then m else <[x:=l]> (<[y:=smoved keeps y l]> m))
      | _, _ => Bad
      end
  | SAssignRange x r => supd m x OUnit (λ _, svalues m r)
  | SAssignInput x l => sinput m x OUnit (λ _, 0) length l
  | SAssignIlist x l => supd m x OUnit (λ _, svalues m (RExt (Some <$> l)))
  | SAssignFill x n c => supd m x OUnit (λ _, Some (replicate n c))
  | SAppendRange x r =>
      supd m x OUnit (λ l, match svalues m r with
                           | Some cs => if decide (roomy (length l + length cs)) then Some (l ++ cs) else None
                           | None => None end)
  | SAppendInput x l => sinput m x OUnit length length l
  | SAppendIlist x l =>
      supd m x OUnit (λ k, match svalues m (RExt (Some <$> l)) with Some cs => Some (k ++ cs) | None => None end)
  | SAppendFill x n c =>
      supd m x OUnit (λ l, if decide (countable (length l + n)) then Some (l ++ replicate n c) else None)
  | SInsertRange x i r =>
      supd m x (ONat i) (λ l, sreplace i i (svalues m r) (λ l, roomy (length l + rlen r)) l)
  | SInsertInput x i l => sinput m x (ONat i) (λ _, i) (λ _, i) l
  | SInsertIlist x i l => supd m x (ONat i) (sreplace i i (svalues m (RExt (Some <$> l))) (λ _, True))
  | SInsertFill x i n c =>
      supd m x (ONat i) (sreplace i i (Some (replicate n c)) (λ l, countable (length l + n)))
  | SReplaceRange x i j r =>
      supd m x OUnit (λ l, sreplace i j (svalues m r) (λ l, roomy (length l + rlen r)) l)
  | SReplaceInput x i j l => sinput m x OUnit (λ _, i) (λ _, j) l
  | SReplaceIlist x i j l => supd m x OUnit (sreplace i j (svalues m (RExt (Some <$> l))) (λ _, True))
  | SReplaceFill x i j n c =>
      supd m x OUnit (sreplace i j (Some (replicate n c)) (λ l, countable (length l - (j - i) + n)))
  | SErase x i j => supd m x (ONat i) (sreplace i j (Some []) (λ _, True))
  | SErase1 x i => supd m x (ONat i) (sreplace i (S i) (Some []) (λ _, True))
  | SPushBack x c => supd m x OUnit (λ l, Some (l ++ [c]))
  | SPopBack x => supd m x OUnit (λ l, if decide (l = []) then None else Some (take (length l - 1) l))
  | SReserve x n => supd m x OUnit Some
  | SResize x n => supd m x OUnit (λ l, Some (take n l ++ replicate (n - length l) NUL))
  | SResizeFill x n c => supd m x OUnit (λ l, Some (take n l ++ replicate (n - length l) c))
  | SShrink x => supd m x OUnit Some
  | SClear x => supd m x OUnit (λ _, Some [])
  | SSwap x y =>
      match m !! x, m !! y with
      | Some l, Some k => Done OUnit (<[x:=k]> (<[y:=l]> m))
      | _, _ => Bad
      end
  | SSubstrTail z x i =>
      snew m z (match m !! x with Some l => if decide (i ≤ length l) then Some (drop i l) else None | None => None end)
  | SSubstr z x i n => snew m z (svalues m (RSub x i n))
  | SSubstrTailMove z x i =>
      match m !! z, m !! x with
      | None, Some l =>
          if decide (i ≤ length l) then Done OUnit (<[z:=drop i l]> (<[x:=smoved keeps x (drop i l)]> m)) else Bad
      | _, _ => Bad
      end
  | SSubstrMove z x i n =>
      match m !! z, m !! x with
      | None, Some l =>
          if decide (i + n ≤ length l)
          then Done OUnit (<[z:=take n (drop i l)]> (<[x:=smoved keeps x (take n (drop i l))]> m)) else Bad
      | _, _ => Bad
      end
  | SSet x i c => supd m x OUnit (λ l, if decide (i < length l) then Some (<[i:=c]> l) else None)
  | SAt x i =>
      match m !! x with
      | Some l => match l !! i with Some v => Done (OChar v) m | None => Throws OutOfRange end
      | None => Bad
      end
  | SIndex x i => sget m x (λ _, i)
  | SFront x => sget m x (λ _, 0)
  | SBack x => sget m x (λ l, length l - 1)
  | SCStr x i =>
      match m !! x with
      | Some l => match (l ++ [NUL]) !! i with Some v => Done (OChar v) m | None => Bad end
      | None => Bad
      end
  | SSize x => match m !! x with Some l => Done (ONat (length l)) m | None => Bad end
  | SEmpty x => match m !! x with Some l => Done (OBool (bool_decide (l = []))) m | None => Bad end
  end.

(** The largest number of characters a call may ask memory for. *)
Definition slen (m : state) (x : nat) : nat := match m !! x with Some l => length l | None => 0 end.
Definition demand (o : sop) (m : state) : nat :=
  match o with
  | SNewRange _ r | SAssignRange _ r => rlen r
  | SNewInput _ l | SAssignInput _ l => length l
  | SNewCopy _ y | SCopyAssign _ y => slen m y
  | SNewFill _ n _ | SAssignFill _ n _ | SReserve _ n | SResize _ n | SResizeFill _ n _ | SSubstr _ _ _ n => n
  | SAssignIlist _ l => length l
  | SConcat _ l r => rlen l + rlen r
  | SAppendRange x r | SInsertRange x _ r => slen m x + rlen r
  | SAppendInput x l | SInsertInput x _ l => slen m x + length l
  | SAppendIlist x l | SInsertIlist x _ l => slen m x + length l
  | SAppendFill x n _ | SInsertFill x _ n _ => slen m x + n
  | SReplaceRange x i j r => slen m x - (j - i) + rlen r
  | SReplaceInput x i j l => length l `max` (slen m x - (j - i) + length l)
  | SReplaceIlist x i j l => slen m x - (j - i) + length l
  | SReplaceFill x i j n _ => slen m x - (j - i) + n
  | SPushBack x _ => S (slen m x)
  | SSubstrTail _ x i => slen m x - i
  | _ => 0
  end.

(** Calls that acquire memory, and hence may report failure. *)
Definition acquires (o : sop) : bool :=
  match o with
  | SNewRange _ _ | SNewInput _ _ | SNewCopy _ _ | SNewFill _ _ _ | SConcat _ _ _ | SCopyAssign _ _
  | SAssignRange _ _ | SAssignInput _ _ | SAssignIlist _ _ | SAssignFill _ _ _
  | SAppendRange _ _ | SAppendInput _ _ | SAppendIlist _ _ | SAppendFill _ _ _
  | SInsertRange _ _ _ | SInsertInput _ _ _ | SInsertIlist _ _ _ | SInsertFill _ _ _ _
  | SReplaceRange _ _ _ _ | SReplaceInput _ _ _ _ | SReplaceIlist _ _ _ _ | SReplaceFill _ _ _ _ _
  | SPushBack _ _ | SReserve _ _ | SResize _ _ | SResizeFill _ _ _
  | SSubstrTail _ _ _ | SSubstr _ _ _ _ => true
  | _ => false
  end.

(** Why a call may throw [e]: an allocation made during the call failed, no block for the
    demand can exist, or the demand exceeds max_size(). *)
Definition explained (o : sop) (m : state) (w w' : world) (e : exn) : Prop :=
  acquires o = true ∧
  match e with
  | BadAlloc => (∃ k, nalloc w ≤ k < nalloc w' ∧ alloc_fails k = true) ∨ ptrdiff_max < demand o m + footprint
  | LengthError => max_size < demand o m
  | _ => False
  end.

(** is the string stored inline? *)
Definition inline (w : world) (x : nat) : bool :=
  match objs w !! x with Some s => negb (is_set (s_dealloc s)) | None => false end.

(** The caller's side of a history: every call is made within its contract, the state being
    what the calls that did not throw have made of it. (The execution is consulted only to
    see which calls threw and which moved-from strings kept their characters.) *)
Fixpoint respects (os : list sop) (w : world) (m : state) : Prop :=
  match os with
  | [] => True
  | o :: os' =>
      match sstep (inline w) o m with
      | Bad => False
      | Done _ m' =>
          match sexec o w with
          | Ok _ w' => respects os' w' m' | Exn _ w' => respects os' w' m | _ => True
          end
      | Throws _ => match sexec o w with Ok _ w' | Exn _ w' => respects os' w' m | _ => True end
      end
  end.

(** [replay mem os rs m m']: the results [rs] are those of the calls [os] on plain sequences,
    leading from [m] to [m']; a call that reports an exception has no effect. Calls that
    acquire memory may fail if [mem] is false. *)
Inductive replay (mem : bool) : list sop → list sobs → state → state → Prop :=
  | replay_nil m : replay mem [] [] m m
  | replay_done keeps o os r rs m m1 m2 :
      sstep keeps o m = Done r m1 → replay mem os rs m1 m2 → replay mem (o :: os) (r :: rs) m m2
  | replay_throws keeps o os e rs m m2 :
      sstep keeps o m = Throws e → replay mem os rs m m2 → replay mem (o :: os) (OThrew e :: rs) m m2
  | replay_failed o os e rs m m2 :
      mem = false → acquires o = true → e ∈ [BadAlloc; LengthError] →
      replay mem os rs m m2 → replay mem (o :: os) (OThrew e :: rs) m m2.

(** no call asks for more than a block can hold *)
Fixpoint fits (os : list sop) (w : world) (m : state) : Prop :=
  match os with
  | [] => True
  | o :: os' =>
      demand o m + footprint ≤ ptrdiff_max ∧
      match sstep (inline w) o m, sexec o w with
      | Done _ m', Ok _ w' => fits os' w' m'
      | _, Ok _ w' | _, Exn _ w' => fits os' w' m
      | _, _ => True
      end
  end.

(** What a program can see of the strings: size() and c_str(). *)
Definition shows (w : world) (m : state) : Prop :=
  ∀ x, match m !! x with
       | Some l => str_size x w = Ok (length l) w ∧
                   (∀ i c, l !! i = Some c → str_c_str x i w = Ok c w) ∧
                   str_c_str x (length l) w = Ok NUL w
       | None => objs w !! x = None
       end.
(** states reached by contract-respecting histories *)
Inductive reachable : world → state → Prop :=
  | reach_init : reachable init_world ∅
  | reach_done w m o r r' w' m' :
      reachable w m → sstep (inline w) o m = Done r m' → sexec o w = Ok r' w' → reachable w' m'
  | reach_threw w m o e w' :
      reachable w m → sstep (inline w) o m ≠ Bad → sexec o w = Exn e w' → reachable w' m.

(** the strings whose characters a call may change *)
Definition writes (o : sop) : list nat :=
  match o with
  | SNew x | SNewRange x _ | SNewInput x _ | SNewCopy x _ | SNewFill x _ _ | SDestroy x | SConcat x _ _
  | SCopyAssign x _ | SAssignRange x _ | SAssignInput x _ | SAssignIlist x _ | SAssignFill x _ _
  | SAppendRange x _ | SAppendInput x _ | SAppendIlist x _ | SAppendFill x _ _
  | SInsertRange x _ _ | SInsertInput x _ _ | SInsertIlist x _ _ | SInsertFill x _ _ _
  | SReplaceRange x _ _ _ | SReplaceInput x _ _ _ | SReplaceIlist x _ _ _ | SReplaceFill x _ _ _ _
  | SErase x _ _ | SErase1 x _ | SPushBack x _ | SPopBack x | SResize x _ | SResizeFill x _ _
  | SClear x | SSubstrTail x _ _ | SSubstr x _ _ _ | SSet x _ _ => [x]
  | SNewMove x y | SMoveAssign x y | SSwap x y | SSubstrTailMove x y _ | SSubstrMove x y _ _ => [x; y]
  | SReserve _ _ | SShrink _ | SAt _ _ | SIndex _ _ | SFront _ | SBack _ | SCStr _ _ | SSize _ | SEmpty _ => []
  end.
(** the strings a call may change at all, be it only their buffer or capacity *)
Definition touches (o : sop) : list nat :=
  match o with SReserve x _ | SShrink x => [x] | _ => writes o end.

(** A call on string [x] that keeps to its buffer if that has capacity for [n] characters. The
    overloads taking forward iterators first put the new characters behind the old ones. *)
Definition needs (o : sop) (m : state) : option (nat * nat) :=
  match o with
  | SCopyAssign x y => Some (x, slen m x + slen m y)
  | SAssignRange x r | SAppendRange x r | SInsertRange x _ r | SReplaceRange x _ _ r => Some (x, slen m x + rlen r)
  | SAppendIlist x l | SInsertIlist x _ l => Some (x, slen m x + length l)
  | SAppendFill x n _ | SInsertFill x _ n _ => Some (x, slen m x + n)
  | SReplaceIlist x i j l => Some (x, slen m x - (j - i) + length l)
  | SReplaceFill x i j n _ => Some (x, slen m x - (j - i) + n)
  | SAssignIlist x l => Some (x, length l)
  | SAssignFill x n _ | SReserve x n | SResize x n | SResizeFill x n _ => Some (x, n)
  | SPushBack x _ => Some (x, S (slen m x))
  | SErase x _ _ | SErase1 x _ | SPopBack x | SClear x | SSet x _ _ => Some (x, 0)
  | _ => None
  end.
End spec.
