(** Model of array_ref<T> (/repo/inc/ptl/array_ref.hpp) over vectors: programs that call vectors and look at and
    change their elements through views.

    The vectors are those of VectorModel.v; a view is the two pointers of array_ref.hpp:25. ArrayRefModel.v has the
    other members of array_ref and the arithmetic of sizes; here sizes are numbers, and what an index past the end
    designates is decided by the memory. A program that makes a view from the null pointer of an empty vector adds 0
    to it, which is defined. *)
From stdpp Require Import prelude gmap.
From Verif Require Import Cpp VectorModel.
Local Open Scope nat_scope.

Section model.
Context `{C : VecCfg}.
(** array_ref.hpp:25 first_, last_ *)
Definition view := (ptr * ptr)%type.
Record pworld := PWorld { vectors : world; views : gmap nat view }.

Definition on_vectors {A} (m : M world A) : M pworld A := λ s,
  match m (vectors s) with
  | Ok a w => Ok a (PWorld w (views s))
  | Exn e w => Exn e (PWorld w (views s))
  | Stuck f => Stuck f
  | Terminated => Terminated
  end.
Definition get_view (k : nat) : M pworld view := λ s,
  match views s !! k with Some v => Ok v s | None => Stuck NoObject end.
Definition put_view (k : nat) (v : view) : M pworld unit := λ s, Ok tt (PWorld (vectors s) (<[k:=v]> (views s))).
Definition advance (p : ptr) (n : nat) : ptr := (p.1, p.2 + n).

(** array_ref.hpp:190-192, 185, 178 array_ref(ContiguousRange &&) for a vector: std::data and std::size, vector.hpp:288-293 *)
Definition view_of (k x : nat) : M pworld unit :=
  p <- on_vectors (vec_data x) ;; n <- on_vectors (vec_size x) ;; put_view k ((p, 0), advance (p, 0) n).
(** array_ref.hpp:200 size *)
Definition view_size (k : nat) : M pworld nat := v <- get_view k ;; ret ((v.2).2 - (v.1).2).
(** array_ref.hpp:221 subrange(offset, count); first(count) is that with offset 0 *)
Definition view_sub (k j offset count : nat) : M pworld unit :=
  v <- get_view j ;; put_view k (advance v.1 offset, advance (advance v.1 offset) count).
(** array_ref.hpp:217 last(count) *)
Definition view_last (k j count : nat) : M pworld unit :=
  n <- view_size j ;; v <- get_view j ;; put_view k (advance v.1 (n - count), advance (advance v.1 (n - count)) count).
(** array_ref.hpp:207 operator[], and a read or a write of the element *)
Definition view_index (k i : nat) : M pworld V := v <- get_view k ;; on_vectors (rd (advance v.1 i)).
Definition view_set (k i : nat) (a : V) : M pworld unit := v <- get_view k ;; on_vectors (store (advance v.1 i) a).
(** array_ref.hpp:209-212 at *)
Definition view_at (k i : nat) : M pworld V := n <- view_size k ;; if n <=? i then throw OutOfRange else view_index k i.
(** a range-based for over the view that reads the elements: begin() and end(), array_ref.hpp:224-232 *)
Fixpoint read_up (p : ptr) (n : nat) : M world (list V) :=
  match n with O => ret [] | S n' => a <- rd p ;; l <- read_up (advance p 1) n' ;; ret (a :: l) end.
Definition view_all (k : nat) : M pworld (list V) :=
  n <- view_size k ;; v <- get_view k ;; on_vectors (read_up v.1 n).

Inductive pop :=
  | PCall (o : vop) | PView (k x : nat) | PSub (k j offset count : nat) | PLast (k j count : nat)
  | PIndex (k i : nat) | PSet (k i : nat) (a : V) | PAt (k i : nat) | PSize (k : nat) | PAll (k : nat).
Inductive pobs := PUnit | PObs (r : vobs) | PVal (v : V) | PNat (n : nat) | PList (l : list V) | PThrew (e : exn).
Definition pexec (p : pop) : M pworld pobs :=
  match p with
  | PCall o => r <- on_vectors (vexec o) ;; ret (PObs r)
  | PView k x => view_of k x ;;; ret PUnit
  | PSub k j o n => view_sub k j o n ;;; ret PUnit
  | PLast k j n => view_last k j n ;;; ret PUnit
  | PIndex k i => v <- view_index k i ;; ret (PVal v)
  | PSet k i a => view_set k i a ;;; ret PUnit
  | PAt k i => v <- view_at k i ;; ret (PVal v)
  | PSize k => n <- view_size k ;; ret (PNat n)
  | PAll k => l <- view_all k ;; ret (PList l)
  end.
(** exceptions are caught by the program, which goes on *)
Inductive phist := PFinished (rs : list pobs) (s : pworld) | PFaulted (f : fault) | PAborted.
Fixpoint prun (ps : list pop) (s : pworld) : phist :=
  match ps with
  | [] => PFinished [] s
  | p :: ps' =>
      let go r s' := match prun ps' s' with PFinished rs s'' => PFinished (r :: rs) s'' | h => h end in
      match pexec p s with
      | Ok r s' => go r s'
      | Exn e s' => go (PThrew e) s'
      | Stuck f => PFaulted f
      | Terminated => PAborted
      end
  end.
Definition p_init : pworld := PWorld init_world ∅.
End model.
