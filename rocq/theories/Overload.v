(** Overload resolution of C++17 between call operators with one parameter: reference binding
    and value parameters, generic lambdas, and const call operators. It is an instance of the
    oracle of VisitModel.v, used for examples: the rules of the language, not code of the library.

    [over.match.viable], [over.ics.ref], [over.ics.rank], [temp.deduct.call], [temp.func.order].
    Conversions between alternatives are ranked by a number ([rank]: 1 promotion, 2 conversion);
    conversions within a class hierarchy are left out. *)
From stdpp Require Import prelude.
From Verif Require Import VisitModel.
Local Open Scope nat_scope.

(** T, T &, const T &, T &&, const T && *)
Inductive kind := ByValue | LRef | CLRef | RRef | CRRef.
Global Instance kind_eq : EqDecision kind.
Proof. solve_decision. Defined.
Record callop := CallOp {
  o_generic : bool;    (* the type is auto *)
  o_ty : nat;          (* else the alternative *)
  o_kind : kind;
  o_mutable : bool;    (* the call operator is not const *)
  o_ret : nat → nat;   (* result type for a given alternative *)
  o_fun : nat → Z → Z }.

(** template argument deduction for a generic lambda *)
Definition instantiate (o : callop) (e : expr) : kind :=
  if o_generic o then
    match o_kind o, e_cat e, e_const e with
    | LRef, _, true => CLRef
    | RRef, LValue, true => CLRef
    | RRef, LValue, false => LRef
    | RRef, XValue, true => CRRef
    | k, _, _ => k
    end
  else o_kind o.
(** rank of the conversion of the argument: 0 exact; [None] not viable *)
Definition arg_rank (rank : nat → nat → option nat) (o : callop) (e : expr) : option nat :=
  if o_generic o || (o_ty o =? e_alt e) then
    match instantiate o e, e_cat e, e_const e with
    | ByValue, _, _ | CLRef, _, _ => Some 0
    | LRef, LValue, false => Some 0
    | RRef, XValue, false => Some 0
    | CRRef, XValue, _ => Some 0
    | _, _, _ => None
    end
  else match o_kind o with LRef => None | _ => rank (e_alt e) (o_ty o) end.
Definition viable rank (const : bool) (e : expr) (o : callop) : bool :=
  match arg_rank rank o e with Some _ => negb const || negb (o_mutable o) | None => false end.
Definition is_rref (k : kind) := match k with RRef | CRRef => true | _ => false end.
Definition is_lref (k : kind) := match k with LRef | CLRef => true | _ => false end.
(** is the conversion sequence of the argument better for [a] than for [b]? *)
Definition arg_better rank (e : expr) (a b : callop) : bool :=
  match arg_rank rank a e, arg_rank rank b e with
  | Some i, Some j =>
      let ka := instantiate a e in let kb := instantiate b e in
      (i <? j) ||
      ((i =? j) &&
       ((is_rref ka && is_lref kb) ||
        match ka, kb with
        | LRef, CLRef | RRef, CRRef => (i =? 0) || (o_ty a =? o_ty b)
        | _, _ => false
        end))
  | _, _ => false
  end.
(** the implicit object argument of a non-const visitor *)
Definition obj_better (const : bool) (a b : callop) : bool := negb const && o_mutable a && negb (o_mutable b).
(** partial ordering of generic lambdas: auto & before auto &&, then the more const one *)
Definition more_special (a b : kind) : bool :=
  match a, b with
  | (LRef | CLRef), (RRef | CRRef) => true
  | CLRef, LRef | CRRef, RRef => true
  | _, _ => false
  end.
Definition better rank (const : bool) (e : expr) (a b : callop) : bool :=
  negb (arg_better rank e b a) && negb (obj_better const b a) &&
  (arg_better rank e a b || obj_better const a b ||
   (negb (o_generic a) && o_generic b) ||
   (o_generic a && o_generic b && more_special (o_kind a) (o_kind b))).
(** the best viable one: it is better than all others. [better] is irreflexive *)
Definition best rank (ops : list callop) (const : bool) (e : expr) : option callop :=
  let vs := List.filter (viable rank const e) ops in
  match List.filter (λ a, length (List.filter (λ b, negb (better rank const e a b)) vs) =? 1) vs with
  | [a] => Some a
  | _ => None
  end.

(** types 0 void, 1 int, 2 double; a double is a number of hundredths *)
Definition conv (from to : nat) : option (Z → Z) :=
  match from, to with
  | 1, 2 => Some (λ v, (v * 100)%Z)
  | 2, 1 => Some (λ v, Z.quot v 100)
  | _, _ => if from =? to then Some id else None
  end.
(** alternatives are 0 int and 1 double: floating-integral conversions *)
Definition int_double (from to : nat) : option nat :=
  match from, to with 0, 1 | 1, 0 => Some 2 | _, _ => None end.
Definition lang : VisitLang := {|
  op := callop; rty := nat; V := Z; select := best int_double;
  ret := λ o e, o_ret o (e_alt e); result := λ o e, o_fun o (e_alt e); convert := conv |}.

(** the order of the candidates does not matter *)
Lemma filter_permutation {A} (f g : A → bool) l k :
  (∀ a, f a = g a) → l ≡ₚ k → List.filter f l ≡ₚ List.filter g k.
Proof.
  intros Hfg. induction 1 as [|a l k _ IH|a b l|l k j _ IH1 _ IH2]; cbn [List.filter].
  - done.
  - rewrite Hfg. destruct (g a); [by constructor|done].
  - rewrite !Hfg. assert (E : List.filter f l = List.filter g l) by (by apply List.filter_ext).
    rewrite E. destruct (g a), (g b); try done. constructor.
  - etrans; [exact IH1|]. rewrite <-(List.filter_ext f g Hfg k). exact IH2.
Qed.
Lemma best_permutation rank ops ops' const e : ops ≡ₚ ops' → best rank ops const e = best rank ops' const e.
Proof.
  intros H. unfold best. set (vs := List.filter _ ops). set (vs' := List.filter _ ops').
  assert (Hv : vs ≡ₚ vs') by (by apply filter_permutation).
  assert (Hw : List.filter (λ a, length (List.filter (λ b, negb (better rank const e a b)) vs) =? 1) vs ≡ₚ
               List.filter (λ a, length (List.filter (λ b, negb (better rank const e a b)) vs') =? 1) vs').
  { apply filter_permutation; [|done]. intros a. f_equal. by apply Permutation_length, filter_permutation. }
  destruct (List.filter _ vs) as [|a [|b l]], (List.filter _ vs') as [|a' [|b' l']]; try done.
  all: try (apply Permutation_length in Hw; discriminate).
  apply Permutation_singleton_inj in Hw. by subst.
Qed.
Lemma best_in rank ops const e o : best rank ops const e = Some o → o ∈ ops ∧ viable rank const e o = true.
Proof.
  unfold best. set (vs := List.filter _ ops).
  destruct (List.filter _ vs) as [|a [|b l]] eqn:E; try done. intros [= <-].
  assert (H : In a vs). { eapply (proj1 (List.filter_In _ a vs)). rewrite E. by left. }
  apply List.filter_In in H as [H ?]. split; [by apply elem_of_list_In|done].
Qed.
Lemma conv_refl r : conv r r = Some id.
Proof. unfold conv. destruct r as [|[|[|r]]]; try done. by rewrite Nat.eqb_refl. Qed.
