(** Model of overload resolution in the operations on text: construction, assignment, +=, append,
    assign, insert, replace, + and the comparisons of string (string.hpp:299-361, 440-457,
    490-492, 521-525, 550-553, 572-610), construction and comparisons of string_ref
    (string_ref.hpp:119-137, 193-218), each with operands of any type.

    The language's part is [over.match.best], [over.best.ics], [over.ics.rank] and
    [over.match.oper]; std::string_view has the additional overloads of [string.view.comparison].
    What the member functions do with the characters they get is modelled in StringModel.v,
    StringOrder.v and StringRefModel.v; here they return the characters.

    Simplified: characters are numbers; a class of the program has conversion functions to the
    types that occur as parameters, at most one of them to a character, and no operators of its
    own; pos, first and last of insert and replace are iterators of the string. Calls with a
    count or two iterators are not modelled here. *)
From stdpp Require Import prelude.
From Coq Require Import ZArith NArith.
Local Open Scope nat_scope.

Notation chars := (list N).
(** conversion of an integer to char, seen as unsigned char *)
Definition to_char (z : Z) : N := Z.to_N (z mod 256).

Class TextLang := {
  obj : Type;                              (* objects of other classes; what their conversion functions return: *)
  to_view : obj → option chars;            (* std::string_view *)
  to_string : obj → option chars;          (* ptl::string *)
  to_ref : obj → option chars;             (* ptl::string_ref *)
  to_ptr : obj → option (option chars);    (* const char * *)
  to_num : obj → option Z;                 (* an integer *)
}.

(** ** Expressions *)
Inductive arg `{L : TextLang} :=
| AString (rvalue : bool) (l : chars)
| ARef (l : chars)
| AView (l : chars)                        (* std::string_view *)
| AStd (l : chars)                         (* std::string *)
| APtr (p : option chars)                  (* const char *, up to the null character; [None]: a null pointer *)
| AChar (c : N)
| ANum (z : Z)                             (* an integer that is not a literal 0 *)
| AZero                                    (* the literal 0 *)
| ANull                                    (* nullptr *)
| AList (l : chars)                        (* {c1, ..., cn} *)
| AIlist (l : chars)                       (* std::initializer_list<char> *)
| AObj (o : obj).

(** ** Parameters; strings and string_refs are taken by const reference, [PStringRv] is string && *)
Inductive param := PView | PDeduced | PString | PStringRv | PRef | PChar | PList | PPtr.
(** what is passed; [None]: computing it is undefined (the length of a null pointer's string) *)
Inductive val := VView (l : chars) | VString (l : chars) | VRef (l : chars) | VChar (c : N) | VList (l : chars) | VPtr (p : option chars).
Inductive rank := Exact | Conversion | UserDefined.
Definition rank_lt (r s : rank) : bool :=
  match r, s with Exact, (Conversion | UserDefined) => true | Conversion, UserDefined => true | _, _ => false end.

Section model.
Context `{L : TextLang}.

(** standard conversions *)
Definition std_conv (a : arg) (p : param) : option (rank * option val) :=
  match p, a with
  | PView, AView l | PDeduced, AView l => Some (Exact, Some (VView l))
  | PString, AString _ l | PStringRv, AString true l => Some (Exact, Some (VString l))
  | PRef, ARef l => Some (Exact, Some (VRef l))
  | PChar, AChar c => Some (Exact, Some (VChar c))
  | PChar, ANum z => Some (Conversion, Some (VChar (to_char z)))
  | PChar, AZero => Some (Conversion, Some (VChar 0%N))
  | PList, AIlist l | PList, AList l => Some (Exact, Some (VList l))
  | PPtr, APtr q => Some (Exact, Some (VPtr q))
  | PPtr, AZero | PPtr, ANull => Some (Conversion, Some (VPtr None))
  | _, _ => None
  end.
(** the converting constructors of the class, with what they make of their argument *)
Definition view_of_ptr (v : val) : option val := match v with VPtr (Some l) => Some (VView l) | _ => None end.
(** string_ref.hpp:124-125; char_traits::length of a null pointer is undefined *)
Definition ref_of_ptr (v : val) : option val := match v with VPtr (Some l) => Some (VRef l) | _ => None end.
(** string_ref.hpp:136-137 *)
Definition ref_of_view (v : val) : option val := match v with VView l => Some (VRef l) | _ => None end.
(** string.hpp:324 *)
Definition string_of_list (v : val) : option val := match v with VList l => Some (VString l) | _ => None end.
Definition ctors (p : param) : list (param * (val → option val)) :=
  match p with
  | PView => [(PPtr, view_of_ptr)]                          (* std::string_view *)
  | PRef => [(PPtr, ref_of_ptr); (PView, ref_of_view)]
  | PString | PStringRv => [(PList, string_of_list)]        (* that for string_view is explicit, string.hpp:317-318 *)
  | _ => []
  end.
(** default constructors, for {}: string.hpp:297, string_ref.hpp:119-120, std::string_view *)
Definition default_ctor (p : param) : option val :=
  match p with PView => Some (VView []) | PRef => Some (VRef []) | PString | PStringRv => Some (VString []) | _ => None end.
(** conversion functions: string.hpp:550-553, string_ref.hpp:217-218, std::string, those of the program *)
Definition conv_function (a : arg) (p : param) : option val :=
  match a, p with
  | AString _ l, PView | ARef l, PView | AStd l, PView => Some (VView l)
  | AObj o, PView => VView <$> to_view o
  | AObj o, (PString | PStringRv) => VString <$> to_string o
  | AObj o, PRef => VRef <$> to_ref o
  | AObj o, PPtr => VPtr <$> to_ptr o
  | AObj o, PChar => (λ z, VChar (to_char z)) <$> to_num o
  | _, _ => None
  end.
(** the first constructor that takes the argument after a standard conversion: no argument has
    such a conversion to the parameters of two constructors *)
Fixpoint construct (cs : list (param * (val → option val))) (a : arg) : option (option val) :=
  match cs with
  | [] => None
  | (q, f) :: cs' =>
      match std_conv a q with
      | Some (_, Some v) => Some (f v)
      | Some (_, None) => Some None
      | None => construct cs' a
      end
  end.
(** user-defined conversions [over.best.ics]: by a constructor or by a conversion function *)
Definition user_conv (a : arg) (p : param) : option (option val) :=
  match (match a with AList [] => default_ctor p | _ => None end) with
  | Some v => Some (Some v)
  | None =>
      match construct (ctors p) a with
      | Some r => Some r
      | None => Some <$> conv_function a p
      end
  end.
(** implicit conversion sequence *)
Definition conv (a : arg) (p : param) : option (rank * option val) :=
  match std_conv a p with
  | Some r => Some r
  | None => pair UserDefined <$> user_conv a p
  end.

(** ** Overload resolution *)
Record fn {X : Type} := Fn { f_params : list param; f_template : bool; f_body : X }.
Global Arguments fn : clear implicits.
Global Arguments Fn {X}.
Fixpoint conv_all (args : list arg) (ps : list param) : option (list (rank * option val)) :=
  match args, ps with
  | [], [] => Some []
  | a :: args', p :: ps' =>
      match conv a p, conv_all args' ps' with Some r, Some rs => Some (r :: rs) | _, _ => None end
  | _, _ => None
  end.
(** is converting to [p] better than to [q]? Binding an rvalue to string && is better than to const string & *)
Definition conv_better (a : arg) (p q : param) : bool :=
  match conv a p, conv a q with
  | Some (r, _), Some (s, _) =>
      rank_lt r s || (negb (rank_lt s r) && match p, q with PStringRv, PString => true | _, _ => false end)
  | _, _ => false
  end.
Fixpoint some_better (args : list arg) (ps qs : list param) : bool :=
  match args, ps, qs with
  | a :: args', p :: ps', q :: qs' => conv_better a p q || some_better args' ps' qs'
  | _, _, _ => false
  end.
Definition fn_better {X} (args : list arg) (f g : fn X) : bool :=
  negb (some_better args (f_params g) (f_params f)) &&
  (some_better args (f_params f) (f_params g) || (negb (f_template f) && f_template g)).
Inductive resolved {X : Type} := NoMatch | Ambiguous | Best (f : X) (vs : list (option val)).
Global Arguments resolved : clear implicits.
Definition resolve {X} (fs : list (fn X)) (args : list arg) : resolved X :=
  let vs := List.filter (λ f, match conv_all args (f_params f) with Some _ => true | None => false end) fs in
  match vs with
  | [] => NoMatch
  | _ =>
      match List.filter (λ f, length (List.filter (fn_better args f) vs) =? length vs - 1) vs with
      | [f] => match conv_all args (f_params f) with Some rs => Best (f_body f) (snd <$> rs) | None => NoMatch end
      | _ => Ambiguous
      end
  end.

(** ** What a call does *)
Inductive outcome {X : Type} := NoCompile | Undefined | Recursion | Value (x : X).
Global Arguments outcome : clear implicits.
Definition omap {X Y} (f : X → Y) (o : outcome X) : outcome Y :=
  match o with NoCompile => NoCompile | Undefined => Undefined | Recursion => Recursion | Value x => Value (f x) end.
Definition call {X R} (fs : list (fn X)) (args : list arg) (k : X → list val → outcome R) : outcome R :=
  match resolve fs args with
  | Best f vs => match mapM id vs with Some vs' => k f vs' | None => Undefined end
  | _ => NoCompile
  end.
(** initialisation of a parameter *)
Definition pass (a : arg) (p : param) : outcome val :=
  match conv a p with Some (_, Some v) => Value v | Some (_, None) => Undefined | None => NoCompile end.
(** the characters of a value *)
Definition content (v : val) : outcome chars :=
  match v with VView l | VString l | VRef l | VList l => Value l | VChar c => Value [c] | VPtr (Some l) => Value l | VPtr None => Undefined end.
(** the parameter, used as an expression *)
Definition use (v : val) : arg :=
  match v with
  | VView l => AView l | VString l => AString false l | VRef l => ARef l | VChar c => AChar c | VList l => AIlist l | VPtr p => APtr p
  end.

(** ** string *)
Inductive body := BCopy | BMove | BText.
(** string.hpp:299-300, 317-318, 324: string(a); the copy constructor converts to string_view *)
Definition string_ctors : list (fn body) :=
  [Fn [PString] false BCopy; Fn [PStringRv] false BMove; Fn [PView] false BText; Fn [PList] false BText].
Fixpoint string_ctor (fuel : nat) (a : arg) : outcome chars :=
  match fuel with
  | O => Recursion
  | S fuel' =>
      call string_ctors [a] (λ f vs,
        match f, vs with
        | BCopy, [v] => match pass (use v) PView with Value w => string_ctor fuel' (use w) | Undefined => Undefined | _ => NoCompile end
        | _, [v] => content v
        | _, _ => NoCompile
        end)
  end.
(** a as argument for a parameter of type string *)
Definition string_param (a : arg) : outcome chars :=
  match pass a PString with Value v => content v | Undefined => Undefined | _ => NoCompile end.
(** string.hpp:456-457 assign(a) *)
Definition assign_fns : list (fn body) := [Fn [PView] false BText; Fn [PList] false BText].
Definition string_assign (a : arg) : outcome chars :=
  call assign_fns [a] (λ _ vs, match vs with [v] => content v | _ => NoCompile end).
(** string.hpp:301-305, 326-333 operator= *)
Definition assignment_fns : list (fn body) :=
  [Fn [PString] false BCopy; Fn [PStringRv] false BMove; Fn [PView] false BText; Fn [PList] false BText].
Fixpoint string_assignment (fuel : nat) (a : arg) : outcome chars :=
  match fuel with
  | O => Recursion
  | S fuel' =>
      call assignment_fns [a] (λ f vs,
        match f, vs with
        | BCopy, [v] => match pass (use v) PView with Value w => string_assignment fuel' (use w) | Undefined => Undefined | _ => NoCompile end
        | BMove, [v] => content v
        | BText, [v] => string_assign (use v)
        | _, _ => NoCompile
        end)
  end.
(** string.hpp:440-441 append(a); 442 append(1, ch) *)
Definition append_fns : list (fn body) := [Fn [PView] false BText; Fn [PList] false BText].
Definition string_append (a : arg) : outcome chars :=
  call append_fns [a] (λ _ vs, match vs with [v] => content v | _ => NoCompile end).
(** string.hpp:335-338, 343-350, 356-359 operator+= *)
Definition plus_fns : list (fn body) :=
  [Fn [PView] false BText; Fn [PList] false BText; Fn [PChar] false BMove; Fn [PString] false BText].
Definition string_plus (a : arg) : outcome chars :=
  call plus_fns [a] (λ f vs,
    match f, vs with
    | BMove, [v] => content v
    | _, [v] => string_append (use v)
    | _, _ => NoCompile
    end).
(** string.hpp:490-492 insert(pos, a) *)
Definition insert_fns : list (fn body) := [Fn [PView] false BText; Fn [PList] false BText; Fn [PChar] false BText].
Definition string_insert (a : arg) : outcome chars :=
  call insert_fns [a] (λ _ vs, match vs with [v] => content v | _ => NoCompile end).
(** string.hpp:521-525 replace(first, last, a) *)
Definition replace_fns : list (fn body) := [Fn [PView] false BText; Fn [PList] false BText].
Definition string_replace (a : arg) : outcome chars :=
  call replace_fns [a] (λ _ vs, match vs with [v] => content v | _ => NoCompile end).

(** ** Binary operators: there are none for braces *)
Definition is_braces (a : arg) : bool := match a with AList _ => true | _ => false end.
Definition is_string (a : arg) : bool := match a with AString _ _ => true | _ => false end.
Definition is_ref (a : arg) : bool := match a with ARef _ => true | _ => false end.
Definition is_std (a : arg) : bool := match a with AView _ | AStd _ => true | _ => false end.
(** string.hpp:339-342, 351-354, 360-361 operator+; friends of string, found for strings *)
Definition concat_fns : list (fn unit) :=
  [Fn [PView; PString] false tt; Fn [PString; PView] false tt; Fn [PChar; PString] false tt; Fn [PString; PChar] false tt;
   Fn [PString; PString] false tt].
(** string.hpp:238 concat(std::string_view, std::string_view); a character is passed as {&ch, 1} *)
Definition concat (v w : val) : outcome chars :=
  let side (v : val) := match v with VChar c => Value (VView [c]) | _ => pass (use v) PView end in
  match side v, side w with
  | Value (VView l), Value (VView r) => Value (l ++ r)
  | Undefined, _ | _, Undefined => Undefined
  | _, _ => NoCompile
  end.
Definition string_concat (a b : arg) : outcome chars :=
  if is_braces a || is_braces b then NoCompile
  else call (if is_string a || is_string b then concat_fns else []) [a; b]
         (λ _ vs, match vs with [v; w] => concat v w | _ => NoCompile end).

(** ** Comparisons *)
Inductive cop := CEq | CNe | CLt | CLe | CGt | CGe.
(** comparison of two std::string_view *)
Fixpoint view_compare (l r : chars) : comparison :=
  match l, r with
  | [], [] => Eq
  | [], _ :: _ => Lt
  | _ :: _, [] => Gt
  | x :: l', y :: r' => match (x ?= y)%N with Eq => view_compare l' r' | c => c end
  end.
Definition view_op (o : cop) (l r : chars) : bool :=
  match o, view_compare l r with
  | CEq, Eq | CNe, (Lt | Gt) | CLt, Lt | CLe, (Lt | Eq) | CGt, Gt | CGe, (Gt | Eq) => true
  | _, _ => false
  end.
Inductive cmp_body := KStrings | KViewString | KStringView | KRefs | KStd.
(** string.hpp:572-584, 586-597, 599-610 *)
Definition string_cmp : list (fn cmp_body) :=
  [Fn [PString; PString] false KStrings; Fn [PView; PString] false KViewString; Fn [PString; PView] false KStringView].
(** string_ref.hpp:193-211 *)
Definition ref_cmp : list (fn cmp_body) := [Fn [PRef; PRef] false KRefs].
(** [string.view.comparison]: one operand deduced, the other converted; those of std::string
    cannot be deduced from other operands than std::string and pointers *)
Definition std_cmp : list (fn cmp_body) := [Fn [PDeduced; PView] true KStd; Fn [PView; PDeduced] true KStd].
(** the operators found: friends of the classes of the operands *)
Definition cmp_fns (a b : arg) : list (fn cmp_body) :=
  (if is_string a || is_string b then string_cmp else []) ++
  (if is_ref a || is_ref b then ref_cmp else []) ++
  (if is_std a || is_std b then std_cmp else []).
Definition cast_view (v : val) : arg := match v with VString l | VRef l => AView l | _ => use v end.
Fixpoint compare (fuel : nat) (o : cop) (a b : arg) : outcome bool :=
  match fuel with
  | O => Recursion
  | S fuel' =>
      match a, b with
      | AView l, AView r => Value (view_op o l r)
      | _, _ =>
          if is_braces a || is_braces b then NoCompile
          else call (cmp_fns a b) [a; b] (λ f vs,
            match vs with
            | [v; w] =>
                match f, o with
                | KStrings, _ => compare fuel' o (use v) (cast_view w)
                | KViewString, _ => compare fuel' o (use v) (cast_view w)
                | KStringView, _ => compare fuel' o (cast_view v) (use w)
                | KRefs, (CEq | CLt) => compare fuel' o (cast_view v) (cast_view w)
                | KRefs, CNe => omap negb (compare fuel' CEq (use v) (use w))
                | KRefs, CGt => compare fuel' CLt (use w) (use v)
                | KRefs, CLe => omap negb (compare fuel' CGt (use v) (use w))
                | KRefs, CGe => omap negb (compare fuel' CLt (use v) (use w))
                | KStd, _ => match v, w with VView l, VView r => Value (view_op o l r) | _, _ => NoCompile end
                end
            | _ => NoCompile
            end)
      end
  end.

(** ** string_ref *)
(** a as argument for a parameter of type string_ref; also assignment, by the implicit copy and
    move assignment operators *)
Definition ref_param (a : arg) : outcome chars :=
  match pass a PRef with Value v => content v | Undefined => Undefined | _ => NoCompile end.
(** string_ref.hpp:124-125, 136-137 and the copy constructor: string_ref(a) *)
Definition ref_ctors : list (fn body) := [Fn [PPtr] false BText; Fn [PView] false BText; Fn [PRef] false BCopy].
Definition ref_ctor (a : arg) : outcome chars :=
  call ref_ctors [a] (λ _ vs, match vs with [v] => content v | _ => NoCompile end).
End model.
