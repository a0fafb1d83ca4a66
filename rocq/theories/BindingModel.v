(** Model of the tuple protocol of array, tuple and bitset: std::tuple_size, std::tuple_element,
    get, and the structured bindings that use them (array.hpp:42-69, 279-285; tuple.hpp:49-60,
    94-105, 138-147; bitset.hpp:66-72, 412-418).

    Types are those of the program, with or without const; an expression has a type and a value
    category. The language's part is [dcl.struct.bind], [over.ics.rank] and [dcl.init.ref].

    Components of reference type do not exist (tuple.hpp:83, they have no default constructor).

    Simplified: volatile does not exist; copying and moving elements does not throw; whether a
    container can be copied or moved from an expression is an oracle (it is the subject of
    ArrayCtor.v and TupleCtor.v). *)
From stdpp Require Import prelude.
From Verif Require Import Cpp.
Local Open Scope nat_scope.

Inductive category := LValue | XValue | PRValue.
Global Instance category_eq : EqDecision category.
Proof. solve_decision. Defined.
Record ety {B : Type} := Ety { e_base : B; e_const : bool }.
Global Arguments ety : clear implicits.
Global Arguments Ety {B}.
(** array<t, n>, tuple<ts...>, bitset<n> *)
Inductive container {B : Type} := CArray (t : ety B) (n : nat) | CTuple (ts : list (ety B)) | CBits (n : nat).
Global Arguments container : clear implicits.

Class BindLang := {
  B : Type;                                          (* the types of the program *)
  B_eq :> EqDecision B;
  bool_ : B;
  copies : container B → bool → category → bool;     (* is it copied or moved from such an expression? *)
  V : Type;                                          (* values of elements *)
  moved : V → V;                                     (* what is left in an element that was moved *)
}.

Section model.
Context `{L : BindLang}.
Definition add_const (k : bool) (t : ety B) : ety B := Ety (e_base t) (e_const t || k).

(** ** tuple_size and tuple_element *)
(** array.hpp:280-281, tuple.hpp:139-140, bitset.hpp:413-414 *)
Definition tuple_size (c : container B) : nat :=
  match c with CArray _ n => n | CTuple ts => length ts | CBits n => n end.
(** tuple.hpp:142-146; the primary template is not defined *)
Fixpoint tuple_element_of (ts : list (ety B)) (i : nat) : option (ety B) :=
  match ts, i with
  | t :: _, O => Some t
  | _ :: ts', S i' => tuple_element_of ts' i'
  | [], _ => None
  end.
(** array.hpp:283-284, bitset.hpp:416-417 *)
Definition tuple_element (c : container B) (i : nat) : option (ety B) :=
  match c with
  | CArray t _ => Some t
  | CTuple ts => tuple_element_of ts i
  | CBits _ => Some (Ety bool_ false)
  end.
(** std::tuple_element<I, const T> *)
Definition tuple_element_cv (c : container B) (k : bool) (i : nat) : option (ety B) := add_const k <$> tuple_element c i.

(** ** get *)
(** what the result of get denotes: element [i] of its argument, or a copy of it *)
Inductive denotes := DElem (i : nat) | DCopy (i : nat).
Record gexpr := GExpr { g_ty : ety B; g_cat : category; g_den : denotes }.

(** parameters T &, const T &, T &&, const T && *)
Record param := Param { p_const : bool; p_rref : bool }.
Definition viable (k : bool) (c : category) (p : param) : bool :=
  (negb k || p_const p) &&
  (if p_rref p then match c with LValue => false | _ => true end
   else match c with LValue => true | _ => p_const p end).
(** [over.ics.rank]: an rvalue binds to an rvalue reference rather than to an lvalue reference; of
    references of the same kind, the one to the less const type is better *)
Definition better (c : category) (p q : param) : bool :=
  match p_rref p, p_rref q with
  | true, false => true
  | false, true => false
  | _, _ => negb (p_const p) && p_const q
  end.
Definition resolve {A} (par : A → param) (fs : list A) (k : bool) (c : category) : option A :=
  let vs := List.filter (λ f, viable k c (par f)) fs in
  match List.filter (λ f, length (List.filter (λ g, better c (par f) (par g)) vs) =? length vs - 1) vs with
  | [f] => Some f
  | _ => None
  end.
(** initialisation of a reference (to const if [k]; an rvalue reference if [rref]) to type [t] by
    an expression *)
Definition ref_binds (t : ety B) (rref : bool) (e : gexpr) : bool :=
  bool_decide (e_base t = e_base (g_ty e)) && (e_const t || negb (e_const (g_ty e))) &&
  (if rref then match g_cat e with LValue => false | _ => true end
   else match g_cat e with LValue => true | _ => e_const t end).
Definition std_move (e : gexpr) : gexpr := GExpr (g_ty e) XValue (g_den e).

(** array.hpp:42-69 the overloads: parameter; return type Type or const Type, & or &&; return
    self[Index] or std::move(self[Index]) *)
Record getfn := GetFn { f_par : param; f_rconst : bool; f_rref : bool; f_move : bool }.
Definition array_gets : list getfn :=
  [GetFn (Param true false) true false false;    (* array.hpp:42-48 *)
   GetFn (Param false false) false false false;  (* array.hpp:49-55 *)
   GetFn (Param true true) true true true;       (* array.hpp:56-62 *)
   GetFn (Param false true) false true true].    (* array.hpp:63-69 *)
Definition array_get (t : ety B) (n : nat) (k : bool) (c : category) (i : nat) : option gexpr :=
  match resolve f_par array_gets k c with
  | None => None
  | Some f =>
      if i <? n then
        let e := GExpr (add_const (p_const (f_par f)) t) LValue (DElem i) in
        let e' := if f_move f then std_move e else e in
        let r := add_const (f_rconst f) t in
        if ref_binds r (f_rref f) e' then Some (GExpr r (if f_rref f then XValue else LValue) (g_den e')) else None
      else None                                  (* static_assert *)
  end.

(** tuple.hpp:49-60 storage_t::get; decltype(auto) of a parenthesised member: an lvalue *)
Fixpoint storage_get (ts : list (ety B)) (k : bool) (i at_ : nat) : option gexpr :=
  match ts, i with
  | t :: _, O => Some (GExpr (add_const k t) LValue (DElem at_))
  | _ :: ts', S i' => storage_get ts' k i' (S at_)
  | [], _ => None
  end.
(** tuple.hpp:94-105 the overloads of get; those for rvalues move the result of get<Index>(),
    *this being an lvalue *)
Definition tuple_gets : list param := [Param true false; Param false false; Param true true; Param false true].
Definition tuple_get (ts : list (ety B)) (k : bool) (c : category) (i : nat) : option gexpr :=
  match resolve id tuple_gets k c with
  | None => None
  | Some p =>
      if p_rref p then
        match resolve id tuple_gets (p_const p) LValue with
        | Some q => if p_rref q then None else std_move <$> storage_get ts (p_const q) i 0
        | None => None
        end
      else storage_get ts (p_const p) i 0
  end.
(** bitset.hpp:66-72; const_reference is bool *)
Definition bits_get (n : nat) (k : bool) (c : category) (i : nat) : option gexpr :=
  match resolve id [Param true false] k c with
  | None => None
  | Some _ => if i <? n then Some (GExpr (Ety bool_ false) PRValue (DCopy i)) else None
  end.
(** get<i>(e) or e.get<i>() for an expression of the container, const if [k] *)
Definition get (c : container B) (k : bool) (cat : category) (i : nat) : option gexpr :=
  match c with
  | CArray t n => array_get t n k cat i
  | CTuple ts => tuple_get ts k cat i
  | CBits n => bits_get n k cat i
  end.

(** ** Structured bindings [dcl.struct.bind] *)
(** auto, auto &, auto &&, each with or without const *)
Inductive refkind := NoRef | LRef | RRef.
Record decl := Decl { d_const : bool; d_ref : refkind }.
(** the variable e: is its type const, is it an lvalue reference, is it an object of its own? *)
Record evar := EVar { v_const : bool; v_lref : bool; v_new : bool }.
Definition is_prvalue (cat : category) : bool := match cat with PRValue => true | _ => false end.
Definition is_lvalue (cat : category) : bool := match cat with LValue => true | _ => false end.
Definition declare (d : decl) (c : container B) (k : bool) (cat : category) : option evar :=
  match d_ref d with
  | NoRef => if is_prvalue cat || copies c k cat then Some (EVar (d_const d) false true) else None
  | LRef => let k' := d_const d || k in if is_lvalue cat || k' then Some (EVar k' true (is_prvalue cat)) else None
  | RRef =>
      if d_const d then if is_lvalue cat then None else Some (EVar true false (is_prvalue cat))
      else Some (EVar k (is_lvalue cat) (is_prvalue cat))
  end.
(** a name: its type, and what it refers to *)
Record name := Name { n_ty : ety B; n_den : denotes }.
Definition bind_name (c : container B) (v : evar) (i : nat) : option name :=
  match tuple_element_cv c (v_const v) i, get c (v_const v) (if v_lref v then LValue else XValue) i with
  | Some t, Some e => if ref_binds t (negb (is_lvalue (g_cat e))) e then Some (Name t (g_den e)) else None
  | _, _ => None
  end.
(** decl [name_0, ..., name_(n-1)] = expression; *)
Definition structured (d : decl) (n : nat) (c : container B) (k : bool) (cat : category) : option (evar * list name) :=
  if n =? 0 then None
  else if n =? tuple_size c then
    match declare d c k cat with
    | Some v => pair v <$> mapM (bind_name c v) (seq 0 n)
    | None => None
    end
  else None.

(** ** Using the names *)
(** the object the expression denoted, if it is not a temporary, whether it is const, the object
    e, if it is one of its own, the copies made by get, and the names *)
Record state := State {
  source : option (list V); source_const : bool; hidden : option (list V); temps : list V; names : list name }.
(** the state after the declaration, the container having elements [l] *)
Definition start (d : decl) (n : nat) (c : container B) (k : bool) (cat : category) (l : list V) : option state :=
  match structured d n c k cat with
  | None => None
  | Some (v, ns) =>
      let src := if is_prvalue cat then None
                 else Some (if v_new v && negb (is_lvalue cat) && negb k then moved <$> l else l) in
      Some (State src k (if v_new v then Some l else None) l ns)
  end.
(** element [i] of e *)
Definition rd_e (i : nat) : M state V := λ s,
  match (match hidden s with Some l => Some l | None => source s end) with
  | Some l => match l !! i with Some v => Ok v s | None => Stuck OutOfBounds end
  | None => Stuck NoObject
  end.
Definition wr_e (i : nat) (v : V) : M state unit := λ s,
  match hidden s with
  | Some l => if i <? length l then Ok tt (State (source s) (source_const s) (Some (<[i:=v]> l)) (temps s) (names s)) else Stuck OutOfBounds
  | None => match source s with
            | Some l => if i <? length l then Ok tt (State (Some (<[i:=v]> l)) (source_const s) None (temps s) (names s)) else Stuck OutOfBounds
            | None => Stuck NoObject
            end
  end.
Definition rd_temp (i : nat) : M state V := λ s, match temps s !! i with Some v => Ok v s | None => Stuck OutOfBounds end.
Definition wr_temp (i : nat) (v : V) : M state unit := λ s,
  if i <? length (temps s) then Ok tt (State (source s) (source_const s) (hidden s) (<[i:=v]> (temps s)) (names s)) else Stuck OutOfBounds.
Definition rd_name (i : nat) : M state V := λ s,
  match names s !! i with
  | Some n => match n_den n with DElem j => rd_e j s | DCopy j => rd_temp j s end
  | None => Stuck NoObject
  end.
(** assignment to a name; of const type: does not compile *)
Definition wr_name (i : nat) (v : V) : M state unit := λ s,
  match names s !! i with
  | Some n => if e_const (n_ty n) then Stuck WrongType
              else match n_den n with DElem j => wr_e j v s | DCopy j => wr_temp j v s end
  | None => Stuck NoObject
  end.
(** access to the object itself *)
Definition rd_source (i : nat) : M state V := λ s,
  match source s with
  | Some l => match l !! i with Some v => Ok v s | None => Stuck OutOfBounds end
  | None => Stuck NoObject
  end.
Definition wr_source (i : nat) (v : V) : M state unit := λ s,
  match source s with
  | Some l => if source_const s then Stuck WrongType
              else if i <? length l then Ok tt (State (Some (<[i:=v]> l)) (source_const s) (hidden s) (temps s) (names s))
              else Stuck OutOfBounds
  | None => Stuck NoObject
  end.

Inductive bop := ReadName (i : nat) | WriteName (i : nat) (v : V) | ReadSource (i : nat) | WriteSource (i : nat) (v : V).
Definition bexec (o : bop) : M state (option V) :=
  match o with
  | ReadName i => v <- rd_name i ;; ret (Some v)
  | WriteName i v => wr_name i v ;;; ret None
  | ReadSource i => v <- rd_source i ;; ret (Some v)
  | WriteSource i v => wr_source i v ;;; ret None
  end.
Fixpoint brun (os : list bop) (s : state) : option (list (option V) * state) :=
  match os with
  | [] => Some ([], s)
  | o :: os' =>
      match bexec o s with
      | Ok r s' => match brun os' s' with Some (rs, s'') => Some (r :: rs, s'') | None => None end
      | _ => None
      end
  end.
End model.
