(** Model of string_ref (/repo/inc/ptl/string_ref.hpp) over strings: programs that call strings and read their
    characters through views.

    The strings are those of StringModel.v; a view is the two pointers of string_ref.hpp:16. StringRefModel.v has the
    other members of string_ref and the arithmetic of sizes; here sizes are numbers, and what an index past the end
    designates is decided by the memory. *)
From stdpp Require Import prelude gmap.
From Coq Require Import Init.Byte.
From Verif Require Import Cpp StringModel.
Local Open Scope nat_scope.

Section model.
Context `{C : StrCfg}.
(** pointers that may be null *)
Definition cptr := option bptr.
Definition view := (cptr * cptr)%type.
Record tworld := TWorld { strings : world; views : gmap nat view }.

Definition on_strings {A} (m : M world A) : M tworld A := λ s,
  match m (strings s) with
  | Ok a w => Ok a (TWorld w (views s))
  | Exn e w => Exn e (TWorld w (views s))
  | Stuck f => Stuck f
  | Terminated => Terminated
  end.
Definition get_view (k : nat) : M tworld view := λ s,
  match views s !! k with Some v => Ok v s | None => Stuck NoObject end.
Definition put_view (k : nat) (v : view) : M tworld unit := λ s, Ok tt (TWorld (strings s) (<[k:=v]> (views s))).

(** p + n: a null pointer can only be advanced by 0 *)
Definition cadd (p : cptr) (n : nat) : M tworld cptr :=
  match p with Some q => ret (Some (padd q n)) | None => if n =? 0 then ret None else stuck NullDeref end.
(** p - n: not to before the beginning of the array *)
Definition csub (p : cptr) (n : nat) : M tworld cptr :=
  match p with
  | Some q => if n <=? q.2 then ret (Some (q.1, q.2 - n)) else stuck OutOfBounds
  | None => if n =? 0 then ret None else stuck NullDeref
  end.
(** string_ref.hpp:131-132 string_ref(const_pointer, size_type) *)
Definition view_at_ptr (k : nat) (p : cptr) (n : nat) : M tworld unit := q <- cadd p n ;; put_view k (p, q).
(** string.hpp:550-553 operator std::string_view, which is without an address for empty strings, then
    string_ref.hpp:136-137 string_ref(const std::string_view &) *)
Definition view_of (k x : nat) : M tworld unit :=
  n <- on_strings (str_size x) ;;
  if n =? 0 then view_at_ptr k None 0 else p <- on_strings (str_data x) ;; view_at_ptr k (Some p) n.
(** traits_type::length: the number of characters in front of the first null character *)
Fixpoint c_length (b : list (option char)) : fault + nat :=
  match b with
  | [] => inl OutOfBounds
  | None :: _ => inl Uninitialised
  | Some c :: b' => if Byte.eqb c NUL then inr 0 else match c_length b' with inr n => inr (S n) | e => e end
  end.
Definition length_at (p : bptr) : M world nat := λ w,
  match mem w !! p.1 with
  | None => Stuck UseAfterFree
  | Some b => match c_length (drop p.2 b) with inr n => Ok n w | inl f => Stuck f end
  end.
(** string_ref.hpp:124-125 string_ref(const_pointer) for the c_str() of a string, string.hpp:381 *)
Definition view_c_str (k x : nat) : M tworld unit :=
  p <- on_strings (str_data x) ;; n <- on_strings (length_at p) ;; view_at_ptr k (Some p) n.
(** string_ref.hpp:148-149 size: the difference of two pointers into the same array, or of two null pointers *)
Definition view_size (k : nat) : M tworld nat :=
  v <- get_view k ;;
  match v with
  | (Some p, Some q) => if decide (p.1 = q.1) then ret (q.2 - p.2) else stuck OutOfBounds
  | (None, None) => ret 0
  | _ => stuck NullDeref
  end.
(** string_ref.hpp:173-174 substr(offset, count) *)
Definition view_substr (k j offset count : nat) : M tworld unit :=
  v <- get_view j ;; p <- cadd v.1 offset ;; view_at_ptr k p count.
(** string_ref.hpp:166-169 remove_prefix, remove_suffix *)
Definition view_prefix (k count : nat) : M tworld unit := v <- get_view k ;; p <- cadd v.1 count ;; put_view k (p, v.2).
Definition view_suffix (k count : nat) : M tworld unit :=
  v <- get_view k ;; q <- csub v.2 count ;; put_view k (v.1, q).
(** string_ref.hpp:158-159 operator[] *)
Definition view_index (k i : nat) : M tworld char :=
  v <- get_view k ;; p <- cadd v.1 i ;; match p with Some p => on_strings (rd p) | None => stuck NullDeref end.
(** string_ref.hpp:160-164 at *)
Definition view_at (k i : nat) : M tworld char := n <- view_size k ;; if n <=? i then throw OutOfRange else view_index k i.
(** a range-based for over the view: begin() and end(), string_ref.hpp:176-181 *)
Fixpoint read_up (p : bptr) (n : nat) : M world (list char) :=
  match n with O => ret [] | S n' => a <- rd p ;; l <- read_up (padd p 1) n' ;; ret (a :: l) end.
Definition view_all (k : nat) : M tworld (list char) :=
  n <- view_size k ;; v <- get_view k ;;
  match v.1 with Some p => on_strings (read_up p n) | None => if n =? 0 then ret [] else stuck NullDeref end.

Inductive top :=
  | TCall (o : sop) | TView (k x : nat) | TCStr (k x : nat) | TSubstr (k j offset count : nat)
  | TPrefix (k count : nat) | TSuffix (k count : nat) | TIndex (k i : nat) | TAt (k i : nat) | TSize (k : nat) | TAll (k : nat).
Inductive tobs := TUnit | TObs (r : sobs) | TVal (v : char) | TNat (n : nat) | TText (l : list char) | TThrew (e : exn).
Definition texec (p : top) : M tworld tobs :=
  match p with
  | TCall o => r <- on_strings (sexec o) ;; ret (TObs r)
  | TView k x => view_of k x ;;; ret TUnit
  | TCStr k x => view_c_str k x ;;; ret TUnit
  | TSubstr k j o n => view_substr k j o n ;;; ret TUnit
  | TPrefix k n => view_prefix k n ;;; ret TUnit
  | TSuffix k n => view_suffix k n ;;; ret TUnit
  | TIndex k i => v <- view_index k i ;; ret (TVal v)
  | TAt k i => v <- view_at k i ;; ret (TVal v)
  | TSize k => n <- view_size k ;; ret (TNat n)
  | TAll k => l <- view_all k ;; ret (TText l)
  end.
(** exceptions are caught by the program, which goes on *)
Inductive thist := TFinished (rs : list tobs) (s : tworld) | TFaulted (f : fault) | TAborted.
Fixpoint trun (ps : list top) (s : tworld) : thist :=
  match ps with
  | [] => TFinished [] s
  | p :: ps' =>
      let go r s' := match trun ps' s' with TFinished rs s'' => TFinished (r :: rs) s'' | h => h end in
      match texec p s with
      | Ok r s' => go r s'
      | Exn e s' => go (TThrew e) s'
      | Stuck f => TFaulted f
      | Terminated => TAborted
      end
  end.
Definition t_init : tworld := TWorld init_world ∅.
End model.
