(** What const and the value category of an object say about its parts. *)
From stdpp Require Import prelude.
From Verif Require Import ConstModel.
Local Open Scope nat_scope.

(** [U] is the type of a part of an object of type [T]; the flag: some member on the way is declared const *)
Inductive part : bool → ty → ty → Prop :=
  | p_self T : part false T T
  | p_vec e T U : part e T U → part e (Vec T) U
  | p_str e U : part e char U → part e Str U
  | p_arr e T U : part e T U → part e (Arr T) U
  | p_opt e T U : part e T U → part e (Opt T) U
  | p_var e Ts T U : T ∈ Ts → part e T U → part e (Var Ts) U
  | p_tup d e Ts T U : (d, T) ∈ Ts → part e T U → part (d || e) (Tup Ts) U.
(** the same for parts that are inside the object, not on the heap *)
Inductive inside : bool → ty → ty → Prop :=
  | i_self T : inside false T T
  | i_arr e T U : inside e T U → inside e (Arr T) U
  | i_opt e T U : inside e T U → inside e (Opt T) U
  | i_var e Ts T U : T ∈ Ts → inside e T U → inside e (Var Ts) U
  | i_tup d e Ts T U : (d, T) ∈ Ts → inside e T U → inside (d || e) (Tup Ts) U.

(** what a view, pointer or iterator lets one do with the object it refers to *)
Definition target_const (t : ty) (j : nat) : bool :=
  match t with
  | ARef e _ | ORef e _ | Ptr e _ | Iter e _ => e
  | SRef => true
  | VRef ts => match ts !! j with Some (e, _) => e | None => false end
  | _ => false
  end.
(** and which type that has *)
Definition target (t : ty) (j : nat) : option ty :=
  match t with
  | ARef _ u | ORef _ u | Ptr _ u | Iter _ u => Some u
  | SRef => Some char
  | VRef ts => snd <$> ts !! j
  | _ => None
  end.
(** no part of the root can be changed with it *)
Definition read_only (s : state) : Prop :=
  match s with In c _ _ => c = true | Out _ _ t j => target_const t j = true end.
(** a function that takes an rvalue may take the part away *)
Definition may_be_moved (s : state) : Prop := match s with In _ k _ => k = X | Out _ _ _ _ => False end.

(** what an accessor yields: is it const? *)
Definition res_const (r : res) (j : nat) : bool := match r with Ref e _ _ => e | Val t => target_const t j end.
(** the const member functions that say so in their name *)
Definition c_named (a : acc) : bool := match a with CBegin | CRBegin | CStr => true | _ => false end.
(** the j-th member of a tuple may be const *)
Definition member_const (t : ty) (a : acc) : bool :=
  match t, a with Tup ts, Get j => match ts !! j with Some (e, _) => e | None => false end | _, _ => false end.
