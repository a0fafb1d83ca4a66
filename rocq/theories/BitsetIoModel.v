(** Model of the stream operators and of bitset::reference, /repo/inc/ptl/bitset.hpp.

    The standard streams are not part of PTL; the four istream members used are
    modelled from [istream.unformatted] / [istream::sentry] over a character
    sequence with eofbit/failbit/badbit. No exception mask is set on the stream
    (the default), and the C locale decides what whitespace is. *)
From stdpp Require Import prelude gmap.
From Coq Require Import ZArith Ascii.
From Verif Require Import Cpp BitsetModel.
Local Open Scope nat_scope.

(** ** Streams (standard library) *)
Record istream := IStream {
  rest : list ascii;       (* characters not read yet *)
  past : list ascii;       (* characters already read, latest first *)
  eofbit : bool; failbit : bool; badbit : bool;
  skipws : bool;           (* std::ios::skipws *)
}.
Definition good (s : istream) : bool := negb (eofbit s || failbit s || badbit s).
Definition setstate (e f b : bool) (s : istream) : istream :=
  IStream (rest s) (past s) (eofbit s || e) (failbit s || f) (badbit s || b) (skipws s).

(** std::isspace in the C locale *)
Definition isspace (c : ascii) : bool :=
  let n := nat_of_ascii c in (n =? 32) || ((9 <=? n) && (n <=? 13)).
Fixpoint skip_spaces (r p : list ascii) : list ascii * list ascii :=
  match r with
  | c :: r' => if isspace c then skip_spaces r' (c :: p) else (r, p)
  | [] => ([], p)
  end.
(** istream::sentry(is, noskipws): the converted-to-bool result and the stream after it *)
Definition sentry (noskipws : bool) (s : istream) : bool * istream :=
  if good s then
    if noskipws || negb (skipws s) then (true, s)
    else let '(r, p) := skip_spaces (rest s) (past s) in
         let s' := IStream r p (eofbit s) (failbit s) (badbit s) (skipws s) in
         match r with
         | [] => (false, setstate true true false s')
         | _ => (true, s')
         end
  else (false, setstate false true false s).
(** istream::get(): the character, or end-of-file *)
Definition is_get (s : istream) : option ascii * istream :=
  let '(ok, s1) := sentry true s in
  if ok then
    match rest s1 with
    | c :: r => (Some c, IStream r (c :: past s1) (eofbit s1) (failbit s1) (badbit s1) (skipws s1))
    | [] => (None, setstate true true false s1)
    end
  else (None, s1).
(** istream::unget(): clears eofbit, then acts as an unformatted input function *)
Definition is_unget (s : istream) : istream :=
  let s0 := IStream (rest s) (past s) false (failbit s) (badbit s) (skipws s) in
  let '(ok, s1) := sentry true s0 in
  if ok then
    match past s1 with
    | c :: p => IStream (c :: rest s1) p (eofbit s1) (failbit s1) (badbit s1) (skipws s1)
    | [] => setstate false false true s1
    end
  else s1.

(** ** bitset.hpp:333-337 operator<<(std::ostream &, const bitset &): the characters written.
    [i] counts down from Size to 1. *)
Fixpoint print_loop (Size i : nat) : M bitset (list ascii) :=
  match i with
  | O => ret []
  | S i' =>
      t <- bs_test Size i' ;;
      cs <- print_loop Size i' ;;
      ret ((if t : bool then "1" else "0")%char :: cs)
  end.
Definition bs_print (Size : nat) : M bitset (list ascii) := print_loop Size Size.

(** ** bitset.hpp:338-358 operator>>(std::istream &, bitset &) *)
Definition on_fst {A B C} (m : M A C) : M (A * B) C := λ s,
  match m s.1 with
  | Ok c a => Ok c (a, s.2)
  | Exn e a => Exn e (a, s.2)
  | Stuck f => Stuck f
  | Terminated => Terminated
  end.
Definition stream_get : M (bitset * istream) (option ascii) := λ s,
  let '(c, i) := is_get s.2 in Ok c (s.1, i).
Definition stream_mod (f : istream → istream) : M (bitset * istream) unit := λ s, Ok tt (s.1, f s.2).

Definition is_digit (c : ascii) : bool := Ascii.eqb c "0" || Ascii.eqb c "1".

(** bitset.hpp:342-355, [n] iterations left *)
Fixpoint extract_loop (Size n : nat) (extracted : bool) : M (bitset * istream) unit :=
  match n with
  | O => ret tt
  | S n' =>
      c <- stream_get ;;
      match c with
      | Some ch =>
          if is_digit ch then
            (if extracted then ret tt else on_fst (bs_reset_all Size)) ;;;
            on_fst (bs_shl Size 1) ;;;
            (if Ascii.eqb ch "1" then on_fst (bs_set_at Size 0 true) else ret tt) ;;;
            extract_loop Size n' true
          else
            stream_mod is_unget ;;;
            (if extracted then ret tt else stream_mod (setstate false true false))
      | None =>
          stream_mod is_unget ;;;
          (if extracted then ret tt else stream_mod (setstate false true false))
      end
  end.
Definition bs_extract (Size : nat) : M (bitset * istream) unit := λ s,
  let '(ok, i) := sentry false s.2 in
  if ok then extract_loop Size Size false (s.1, i) else Ok tt (s.1, i).

(** ** bitset::reference, bitset.hpp:76-120 *)

(** bitset.hpp:79-80 *)
Record bitref := BitRef { r_self : nat; r_index : nat }.

(** operator[] is overloaded on constness (bitset.hpp:136, 141): on a const lvalue it
    yields the bit, on a non-const lvalue a reference. *)
Inductive constness := ConstLvalue | MutableLvalue.
Inductive subscript_result := SubBit (b : bool) | SubRef (r : bitref).
Definition subscript (Size : nat) (c : constness) (x i : nat) : M bworld subscript_result :=
  match c with
  | ConstLvalue => b <- on_bs x (bs_index Size i) ;; ret (SubBit b)
  | MutableLvalue => peek_bs x ;;; ret (SubRef (BitRef x i))
  end.
(** bitset.hpp:148-151 at(size_type) on a non-const bitset *)
Definition bs_at_ref (Size x i : nat) : M bworld bitref :=
  peek_bs x ;;; if Size <=? i then throw OutOfRange else ret (BitRef x i).

(** bitset.hpp:79: the member is declared "bitset & self", so the expression [self] is a
    non-const lvalue even inside the const member function operator bool. *)
Definition self_expr : constness := MutableLvalue.

(** bitset.hpp:98 operator bool() const { return self[index]; }: if self[index] is a
    reference it is converted by the same function. [None]: not finished within [fuel]
    activations. *)
Fixpoint ref_to_bool (Size fuel : nat) (r : bitref) (w : bworld) : option (res bworld bool) :=
  match fuel with
  | O => None
  | S fuel' =>
      match subscript Size self_expr (r_self r) (r_index r) w with
      | Ok (SubBit b) w' => Some (Ok b w')
      | Ok (SubRef r') w' => ref_to_bool Size fuel' r' w'
      | Exn _ _ => Some Terminated
      | Stuck f => Some (Stuck f)
      | Terminated => Some Terminated
      end
  end.

(** bitset.hpp:91-95 operator=(bool) noexcept *)
Definition ref_assign_bool (Size : nat) (r : bitref) (v : bool) : M bworld unit :=
  noexcept (on_bs (r_self r) (bs_set_at Size (r_index r) v)).
(** bitset.hpp:102-106 flip() noexcept *)
Definition ref_flip (Size : nat) (r : bitref) : M bworld unit :=
  noexcept (on_bs (r_self r) (bs_flip_at Size (r_index r))).
(** bitset.hpp:89 operator=(const reference &) *)
Definition ref_assign (Size fuel : nat) (r other : bitref) (w : bworld) : option (res bworld unit) :=
  match ref_to_bool Size fuel other w with
  | None => None
  | Some (Ok b w') => Some (ref_assign_bool Size r b w')
  | Some (Exn _ _) => Some Terminated
  | Some (Stuck f) => Some (Stuck f)
  | Some Terminated => Some Terminated
  end.
(** bitset.hpp:100 operator~ *)
Definition ref_not (Size fuel : nat) (r : bitref) (w : bworld) : option (res bworld bool) :=
  match ref_to_bool Size fuel r w with
  | Some (Ok b w') => Some (Ok (negb b) w')
  | o => o
  end.
(** bitset.hpp:108-119 swap(reference &), swap(reference, reference) *)
Definition ref_swap (Size fuel : nat) (a b : bitref) (w : bworld) : option (res bworld unit) :=
  if r_index a =? r_index b then Some (Ok tt w)
  else
    match ref_to_bool Size fuel a w with
    | None => None
    | Some (Ok lhs w1) =>
        match ref_to_bool Size fuel b w1 with
        | None => None
        | Some (Ok rhs w2) =>
            if Bool.eqb lhs rhs then Some (Ok tt w2)
            else Some ((ref_assign_bool Size a rhs ;;; ref_assign_bool Size b lhs) w2)
        | Some (Exn _ _) => Some Terminated
        | Some (Stuck f) => Some (Stuck f)
        | Some Terminated => Some Terminated
        end
    | Some (Exn _ _) => Some Terminated
    | Some (Stuck f) => Some (Stuck f)
    | Some Terminated => Some Terminated
    end.
