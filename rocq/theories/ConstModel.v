(** Model of the accessors of the class templates of /repo/inc/ptl: which expressions of an object yield which
    glvalues, pointers and views of its parts.

    Every accessor is the list of its overloads as declared, with their cv- and ref-qualifiers; which one is called
    is decided by the rules of the language ([over.ics.rank]). Simplifications: end() is begin(), and rend() is
    rbegin(), for the types are the same; class templates are instantiated with types their static_asserts accept;
    only what an accessor designates is modelled, not whether it throws; volatile is left out. Views and pointers
    are variables or temporaries of the user or members of other objects; that the user puts a view in a container
    of their own is left out (its type, and with it what it grants, stays the same). *)
From stdpp Require Import prelude.
Local Open Scope nat_scope.

(** lvalue or xvalue; a temporary is an xvalue *)
Inductive cat := L | X.
Global Instance cat_eq : EqDecision cat.
Proof. solve_decision. Defined.
(** types without the const of their own; a pair is a type and its const *)
Inductive ty :=
  | Obj (n : nat) | Vec (t : ty) | Str | Arr (t : ty) | Opt (t : ty) | Var (ts : list ty) | Tup (ts : list (bool * ty))
  | ARef (e : bool) (t : ty) | SRef | ORef (e : bool) (t : ty) | VRef (ts : list (bool * ty))
  | Ptr (e : bool) (t : ty) | Iter (e : bool) (t : ty).
Definition char : ty := Obj 0.

(** what a call yields: a glvalue, or an object *)
Inductive res := Ref (e : bool) (k : cat) (t : ty) | Val (t : ty).
(** a member function: its qualifiers ([None] is no ref-qualifier) and result *)
Record ovl := O { o_const : bool; o_ref : option cat; o_res : res }.

(** the accessors: operator[], at, front, back, data, c_str, begin and end, cbegin and cend, rbegin and rend, crbegin
    and crend, first, last and subrange, operator*, operator->, value, get<k>, get_if<k>, the argument of the visitor *)
Inductive acc := Index | At | Front | Back | Data | CStr | Begin | CBegin | RBegin | CRBegin | Sub
  | Star | Arrow | Value | Get (k : nat) | GetIf (k : nat) | Visit (k : nat).

(** pairs of a const and a non-const overload without ref-qualifiers *)
Definition two (r : bool → res) : list ovl := [O true None (r true); O false None (r false)].
(** only a const member function *)
Definition one (r : res) : list ovl := [O true None r].

(** vector.hpp:272-289, 363-374; the iterators of lines 94-186 *)
Definition vec_members (t : ty) (a : acc) : list ovl :=
  match a with
  | Index | At | Front | Back => two (λ c, Ref c L t)
  | Data => two (λ c, Val (Ptr c t))
  | Begin | RBegin => two (λ c, Val (Iter c t))
  | CBegin | CRBegin => one (Val (Iter true t))
  | _ => []
  end.
(** string.hpp:363-381, 555-566 *)
Definition str_members (a : acc) : list ovl :=
  match a with
  | Index | At | Front | Back => two (λ c, Ref c L char)
  | Data => two (λ c, Val (Ptr c char))
  | CStr => one (Val (Ptr true char))
  | Begin | RBegin => two (λ c, Val (Iter c char))
  | CBegin | CRBegin => one (Val (Iter true char))
  | _ => []
  end.
(** array.hpp:42-69 (get, whose parameter takes the place of the object), 181-246 *)
Definition arr_members (t : ty) (a : acc) : list ovl :=
  match a with
  | Index | At | Front | Back => two (λ c, Ref c L t)
  | Data => two (λ c, Val (Ptr c t))
  | Begin | RBegin => two (λ c, Val (Iter c t))
  | CBegin | CRBegin => one (Val (Iter true t))
  | Get _ => [O true (Some L) (Ref true L t); O false (Some L) (Ref false L t); O true (Some X) (Ref true X t); O false (Some X) (Ref false X t)]
  | _ => []
  end.
(** optional.hpp:96-108, 117-137 *)
Definition opt_members (t : ty) (a : acc) : list ovl :=
  match a with
  | Arrow => two (λ c, Val (Ptr c t))
  | Star | Value => [O true (Some L) (Ref true L t); O false (Some L) (Ref false L t); O true (Some X) (Ref true X t); O false (Some X) (Ref false X t)]
  | _ => []
  end.
(** variant.hpp:266-277 and 99-114 (the Storage of a const variant is const, visit<true> moves), 283-313 *)
Definition var_members (ts : list ty) (a : acc) : list ovl :=
  match a with
  | Get j | Visit j =>
      match ts !! j with
      | Some t => [O true (Some L) (Ref true L t); O false (Some L) (Ref false L t); O true (Some X) (Ref true X t); O false (Some X) (Ref false X t)]
      | None => []
      end
  | GetIf j => match ts !! j with Some t => two (λ c, Val (Ptr c t)) | None => [] end
  | _ => []
  end.
(** tuple.hpp:49-60 (value)  is an lvalue of the type of the member, const in a const storage_t *)
Definition tup_value (c : bool) (et : bool * ty) : res := Ref (c || et.1) L et.2.
(** std::move *)
Definition std_move (r : res) : res := match r with Ref e _ t => Ref e X t | Val t => Val t end.
(** tuple.hpp:93-105; in the overloads for rvalues get<Index>() is called on the lvalue *this *)
Definition tup_members (ts : list (bool * ty)) (a : acc) : list ovl :=
  match a with
  | Get j =>
      match ts !! j with
      | Some et => [O true (Some L) (tup_value true et); O false (Some L) (tup_value false et);
                    O true (Some X) (std_move (tup_value true et)); O false (Some X) (std_move (tup_value false et))]
      | None => []
      end
  | _ => []
  end.
(** array_ref.hpp:194-246; the iterators of lines 63-70 *)
Definition aref_members (e : bool) (t : ty) (a : acc) : list ovl :=
  match a with
  | Index | At | Front | Back => one (Ref e L t)
  | Data => one (Val (Ptr e t))
  | Sub => one (Val (ARef e t))
  | Begin | RBegin => [O true None (Val (Iter true t)); O false None (Val (Iter e t))]
  | CBegin | CRBegin => one (Val (Iter true t))
  | _ => []
  end.
(** string_ref.hpp:143-191 *)
Definition sref_members (a : acc) : list ovl :=
  match a with
  | Index | At | Front | Back => one (Ref true L char)
  | Data => one (Val (Ptr true char))
  | Sub => one (Val SRef)
  | Begin | RBegin | CBegin | CRBegin => one (Val (Iter true char))
  | _ => []
  end.
(** optional_ref.hpp:85-101 *)
Definition oref_members (e : bool) (t : ty) (a : acc) : list ovl :=
  match a with Star | Value => one (Ref e L t) | Arrow => one (Val (Ptr e t)) | _ => [] end.
(** variant_ref.hpp:136-164 and 77-84 *)
Definition vref_members (ts : list (bool * ty)) (a : acc) : list ovl :=
  match a with
  | Get j | Visit j => match ts !! j with Some (e, t) => one (Ref e L t) | None => [] end
  | GetIf j => match ts !! j with Some (e, t) => one (Val (Ptr e t)) | None => [] end
  | _ => []
  end.
(** the operators of pointers, and of the iterators: vector.hpp:122-128, array.hpp:101-107, array_ref.hpp:93-99,
    string.hpp:171-175, string_ref.hpp:56-62 *)
Definition ptr_members (e : bool) (t : ty) (a : acc) : list ovl :=
  match a with Star | Index => one (Ref e L t) | Arrow => one (Val (Ptr e t)) | _ => [] end.
Definition members (t : ty) (a : acc) : list ovl :=
  match t with
  | Obj _ => []
  | Vec u => vec_members u a | Str => str_members a | Arr u => arr_members u a | Opt u => opt_members u a
  | Var ts => var_members ts a | Tup ts => tup_members ts a
  | ARef e u => aref_members e u a | SRef => sref_members a | ORef e u => oref_members e u a | VRef ts => vref_members ts a
  | Ptr e u | Iter e u => ptr_members e u a
  end.

(** ** Overload resolution on the implicit object argument *)
(** a const lvalue reference binds to rvalues too *)
Definition viable (c : bool) (k : cat) (o : ovl) : bool :=
  (negb c || o_const o) &&
  match o_ref o with None => true | Some L => bool_decide (k = L) || o_const o | Some X => bool_decide (k = X) end.
(** rvalue references are better for rvalues; then less const is better *)
Definition better (k : cat) (o p : ovl) : bool :=
  match o_ref o, o_ref p with
  | Some X, Some L => bool_decide (k = X)
  | Some L, Some X => false
  | _, _ => negb (o_const o) && o_const p
  end.
Definition same (o p : ovl) : bool := eqb (o_const o) (o_const p) && bool_decide (o_ref o = o_ref p).
Definition resolve (c : bool) (k : cat) (l : list ovl) : option res :=
  let v := filter (λ o, viable c k o = true) l in
  o_res <$> head (filter (λ o, forallb (λ p, better k o p || same o p) v = true) v).
(** [e.a] where [e] is a glvalue *)
Definition access (a : acc) (c : bool) (k : cat) (t : ty) : option res := resolve c k (members t a).

(** ** Programs that look at the parts of an object, the root *)
(** types that contain what they give access to *)
Definition owner (t : ty) : bool :=
  match t with Vec _ | Str | Arr _ | Opt _ | Var _ | Tup _ => true | _ => false end.
(** the accessor looks at the alternative a variant_ref refers to; the others are null or throw *)
Definition looks (a : acc) (t : ty) (j : nat) : Prop :=
  match t, a with VRef _, (Get i | GetIf i | Visit i) => i = j | _, _ => True end.
(** an expression that designates a part of the root, or one of a view, pointer or iterator that refers to a part of
    the root (for a variant_ref, as its j-th alternative) *)
Inductive state := In (c : bool) (k : cat) (t : ty) | Out (c : bool) (k : cat) (t : ty) (j : nat).
(** qualification conversion *)
Definition adds (e e' : bool) : Prop := e = true → e' = true.

(** one step of a program; the flag says that the program writes std::move of a part of the root *)
Inductive step : bool → state → state → Prop :=
  (** accessors of the root and its parts *)
  | s_part a c k t e k' u : owner t = true → access a c k t = Some (Ref e k' u) → step false (In c k t) (In e k' u)
  | s_made a c k t u : owner t = true → access a c k t = Some (Val u) → step false (In c k t) (Out false X u 0)
  (** accessors of views, pointers and iterators that refer to it *)
  | s_target a c k t j e k' u : looks a t j → access a c k t = Some (Ref e k' u) → step false (Out c k t j) (In e k' u)
  | s_view a c k t j u : looks a t j → access a c k t = Some (Val u) → step false (Out c k t j) (Out false X u 0)
  (** references and std::as_const, std::move *)
  | s_name c k t : step false (In c k t) (In c L t)
  | s_as_const c k t : step false (In c k t) (In true k t)
  | s_move c k t : step true (In c k t) (In c X t)
  (** copies of views are variables, const or not; they may be moved *)
  | s_copy c k t j c' k' : step false (Out c k t j) (Out c' k' t j)
  (** std::addressof, pointer and iterator conversions: vector.hpp:155-156, array.hpp:134-135, array_ref.hpp:126-127,
      string.hpp:203-204; the conversions the other way, vector.hpp:183-184 and string.hpp:231-232, are private *)
  | s_address c t : step false (In c L t) (Out false X (Ptr c t) 0)
  | s_pointer c k e t j : step false (Out c k (Ptr e t) j) (Out false X (Ptr true t) 0)
  | s_iterator c k e t j : step false (Out c k (Iter e t) j) (Out false X (Iter true t) 0)
  (** array_ref.hpp:177-192: from pointers; from a range, for which std::data takes rvalues by const reference *)
  | s_aref_ptr c k e e' t j : adds e e' → step false (Out c k (Ptr e t) j) (Out false X (ARef e' t) 0)
  | s_aref_part c k t e e' u : owner t = true → access Data (match k with L => c | X => true end) L t = Some (Val (Ptr e u)) → adds e e' →
      step false (In c k t) (Out false X (ARef e' u) 0)
  | s_aref_view c k t j e e' u : access Data (match k with L => c | X => true end) L t = Some (Val (Ptr e u)) → adds e e' →
      step false (Out c k t j) (Out false X (ARef e' u) 0)
  (** optional_ref.hpp:78-79 Type & value; a const Type & binds to rvalues *)
  | s_oref c k e t : adds c e → (k = X → e = true) → step false (In c k t) (Out false X (ORef e t) 0)
  (** optional_ref.hpp:81-83 from the lvalue of an optional; lines 49-61 *)
  | s_oref_part c t e e' u : owner t = true → access Star c L t = Some (Ref e L u) → adds e e' → step false (In c L t) (Out false X (ORef e' u) 0)
  | s_oref_view c t j e e' u : access Star c L t = Some (Ref e L u) → adds e e' → step false (Out c L t j) (Out false X (ORef e' u) 0)
  (** variant_ref.hpp:112-125: the alternative of that very type for lvalues, or the const one *)
  | s_vref c k ts j e t : ts !! j = Some (e, t) → (k = L ∧ e = c) ∨ e = true → step false (In c k t) (Out false X (VRef ts) j)
  (** string_ref.hpp:137: from a string, by its conversion to std::string_view, string.hpp:550-553 *)
  | s_sref c k : step false (In c k Str) (Out false X SRef 0).
(** programs; the flag: some step moves a part of the root *)
Inductive steps : bool → state → state → Prop :=
  | s_refl s : steps false s s
  | s_next b b' s1 s2 s3 : steps b s1 s2 → step b' s2 s3 → steps (b || b') s1 s3.
