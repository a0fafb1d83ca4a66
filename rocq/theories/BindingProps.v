(** Property C86: structured bindings of arrays, tuples and bitsets. *)
From stdpp Require Import prelude.
From Coq Require Import Lia.
From Verif Require Import Cpp BindingModel.
Local Open Scope nat_scope.

(** ** Specification *)
Section spec.
Context `{L : BindLang}.
(** the types of the elements *)
Definition elements (c : container B) : list (ety B) :=
  match c with CArray t n => replicate n t | CTuple ts => ts | CBits n => replicate n (Ety bool_ false) end.
Definition is_bits (c : container B) : bool := match c with CBits _ => true | _ => false end.
(** can a variable that is declared like that be initialised with that expression? *)
Definition initialises (d : decl) (c : container B) (k : bool) (cat : category) : Prop :=
  match d_ref d with
  | NoRef => cat = PRValue ∨ copies c k cat = true
  | LRef => cat = LValue ∨ d_const d = true ∨ k = true
  | RRef => d_const d = true → cat ≠ LValue
  end.
(** do the names refer to a const container? *)
Definition const_names (d : decl) (k : bool) : bool :=
  match d_ref d with NoRef => d_const d | _ => d_const d || k end.
Definition with_const (k : bool) (t : ety B) : ety B := Ety (e_base t) (e_const t || k).

(** the values of the names and of the object: the same ones, or separate ones; there is no
    object if the expression was a prvalue *)
Inductive view := Linked (l : list V) | Apart (ns : list V) (src : option (list V)).
Definition first_view (d : decl) (c : container B) (k : bool) (cat : category) (l : list V) : view :=
  match d_ref d, cat with
  | _, PRValue => Apart l None
  | NoRef, XValue => Apart l (Some (if k then l else moved <$> l))
  | NoRef, LValue => Apart l (Some l)
  | _, _ => if is_bits c then Apart l (Some l) else Linked l
  end.
(** [wn i]: name i may be written; [ws]: the object may be written *)
Definition vstep (wn : nat → bool) (ws : bool) (o : bop) (v : view) : option (option V * view) :=
  match o, v with
  | ReadName i, Linked l | ReadName i, Apart l _ => (λ x, (Some x, v)) <$> l !! i
  | WriteName i x, Linked l => if decide (i < length l ∧ wn i = true) then Some (None, Linked (<[i:=x]> l)) else None
  | WriteName i x, Apart l s => if decide (i < length l ∧ wn i = true) then Some (None, Apart (<[i:=x]> l) s) else None
  | ReadSource i, Linked l | ReadSource i, Apart _ (Some l) => (λ x, (Some x, v)) <$> l !! i
  | WriteSource i x, Linked l => if decide (i < length l ∧ ws = true) then Some (None, Linked (<[i:=x]> l)) else None
  | WriteSource i x, Apart ns (Some l) => if decide (i < length l ∧ ws = true) then Some (None, Apart ns (Some (<[i:=x]> l))) else None
  | _, Apart _ None => None
  end.
Fixpoint vrun (wn : nat → bool) (ws : bool) (os : list bop) (v : view) : option (list (option V)) :=
  match os with
  | [] => Some []
  | o :: os' => match vstep wn ws o v with Some (r, v') => cons r <$> vrun wn ws os' v' | None => None end
  end.
(** may name [i] be written? *)
Definition writable (d : decl) (c : container B) (k : bool) (i : nat) : bool :=
  match elements c !! i with Some t => negb (e_const t || const_names d k) | None => false end.
End spec.

Section proofs.
Context `{L : BindLang}.

(** ** tuple_size, tuple_element, get *)
Lemma replicate_out {A} n i (t : A) : n ≤ i → replicate n t !! i = None.
Proof. intros H. apply lookup_ge_None. by rewrite replicate_length. Qed.
Lemma tuple_size_elements c : tuple_size c = length (elements c).
Proof. destruct c; cbn [tuple_size elements]; by rewrite ?replicate_length. Qed.
Lemma tuple_element_of_spec ts i : tuple_element_of ts i = ts !! i.
Proof. revert i. induction ts as [|t ts IH]; intros [|i]; cbn; [done..|]. apply IH. Qed.
Lemma tuple_element_spec c i t : elements c !! i = Some t → tuple_element c i = Some t.
Proof.
  destruct c as [t' n|ts|n]; cbn [elements tuple_element].
  - intros [-> _]%lookup_replicate. done.
  - by rewrite tuple_element_of_spec.
  - intros [-> _]%lookup_replicate. done.
Qed.
Lemma storage_get_spec ts k : ∀ i a, storage_get ts k i a = (λ t, GExpr (with_const k t) LValue (DElem (a + i))) <$> ts !! i.
Proof.
  induction ts as [|t ts IH]; intros [|i] a; cbn [storage_get]; [done..| |].
  - cbn. by rewrite Nat.add_0_r.
  - rewrite IH. cbn. replace (S (a + i)) with (a + S i) by lia. done.
Qed.
(** the category of get's result for arrays and tuples *)
Definition get_category (cat : category) : category := match cat with LValue => LValue | _ => XValue end.

Lemma bool_negb_or (a b : bool) : (a || b || negb (a || b)) = true.
Proof. by destruct a, b. Qed.
Lemma array_get_spec t n k cat i :
  array_get t n k cat i = if decide (i < n) then Some (GExpr (with_const k t) (get_category cat) (DElem i)) else None.
Proof.
  unfold array_get. destruct (resolve f_par array_gets k cat) as [f|] eqn:E; [|by destruct k, cat].
  destruct (Nat.ltb_spec i n); [rewrite decide_True by done|by rewrite decide_False by lia].
  destruct k, cat; cbn in E; injection E as <-; destruct t as [b e]; unfold ref_binds, std_move, add_const, with_const; cbn;
    rewrite bool_decide_eq_true_2 by done; by destruct e.
Qed.
Lemma tuple_get_spec ts k cat i :
  tuple_get ts k cat i = (λ t, GExpr (with_const k t) (get_category cat) (DElem i)) <$> ts !! i.
Proof.
  unfold tuple_get. destruct k, cat; cbn [resolve]; cbn -[storage_get]; rewrite storage_get_spec; cbn; by destruct (ts !! i).
Qed.
Lemma bits_get_spec n k cat i :
  bits_get n k cat i = if decide (i < n) then Some (GExpr (Ety bool_ false) PRValue (DCopy i)) else None.
Proof.
  unfold bits_get. assert (resolve id [Param true false] k cat = Some (Param true false)) as -> by (by destruct k, cat).
  destruct (Nat.ltb_spec i n); [by rewrite decide_True|by rewrite decide_False by lia].
Qed.

(** get, called directly, on any expression of the container: element [i] with the constness and
    value category of the container; other indices do not compile *)
Theorem C86_get c k cat i : is_bits c = false →
  get c k cat i = (λ t, GExpr (with_const k t) (get_category cat) (DElem i)) <$> elements c !! i.
Proof.
  intros Hc. destruct c as [t n|ts|n]; [|apply tuple_get_spec|done]. cbn [get elements]. rewrite array_get_spec.
  case_decide; [by rewrite lookup_replicate_2|]. by rewrite replicate_out by lia.
Qed.
(** for a bitset the value of the bit *)
Theorem C86_get_bits n k cat i :
  get (CBits n) k cat i = if decide (i < n) then Some (GExpr (Ety bool_ false) PRValue (DCopy i)) else None.
Proof. apply bits_get_spec. Qed.
Theorem C86_tuple_size c : tuple_size c = length (elements c).
Proof. apply tuple_size_elements. Qed.
Theorem C86_tuple_element_partial c i t : elements c !! i = Some t → tuple_element c i = Some t.
Proof. apply tuple_element_spec. Qed.
(** not rejected for arrays and bitsets: an index that is too large *)
Theorem C86_tuple_element_refuted c i : length (elements c) ≤ i →
  tuple_element c i = match c with CArray t _ => Some t | CTuple _ => None | CBits _ => Some (Ety bool_ false) end.
Proof. intros Hi. destruct c as [t n|ts|n]; [done| |done]. cbn. rewrite tuple_element_of_spec. by apply lookup_ge_None. Qed.

(** ** Declarations *)
Lemma declare_spec d c k cat :
  (initialises d c k cat ∧ ∃ v, declare d c k cat = Some v ∧ v_const v = const_names d k ∧
     v_new v = (match d_ref d with NoRef => true | _ => is_prvalue cat end)) ∨
  (¬ initialises d c k cat ∧ declare d c k cat = None).
Proof.
  unfold initialises, declare, const_names. destruct d as [dk []]; cbn [d_ref d_const].
  - destruct cat; cbn [is_prvalue orb]; destruct (copies c k _) eqn:E; (left; split; [by auto|by eexists]) || (right; split; [naive_solver|done]).
  - destruct cat, dk, k; cbn; (left; split; [by auto|by eexists]) || (right; split; [naive_solver|done]).
  - destruct dk, k, cat; cbn; (left; split; [by auto|by eexists]) || (right; split; [naive_solver|done]).
Qed.
Definition den_of (c : container B) (i : nat) : denotes := if is_bits c then DCopy i else DElem i.
Lemma bind_name_spec c v i t : elements c !! i = Some t →
  bind_name c v i = Some (Name (with_const (v_const v) t) (den_of c i)).
Proof.
  intros Ht. unfold bind_name, tuple_element_cv. rewrite (tuple_element_spec _ _ _ Ht). cbn [fmap option_fmap option_map]. unfold den_of.
  destruct (is_bits c) eqn:Hb.
  - destruct c as [| |n]; try done. rewrite C86_get_bits. cbn [elements] in Ht. apply lookup_replicate in Ht as [-> Hi].
    rewrite decide_True by done. unfold ref_binds, add_const, with_const. cbn. rewrite bool_decide_eq_true_2 by done. by destruct (v_const v).
  - rewrite (C86_get _ _ _ _ Hb), Ht. cbn [fmap option_fmap option_map g_cat g_den]. unfold ref_binds, add_const, with_const. cbn.
    rewrite bool_decide_eq_true_2 by done. destruct t as [b []], (v_const v), (v_lref v); done.
Qed.
Lemma mapM_total {A A' : Type} (f : A → option A') g l : (∀ a, a ∈ l → f a = Some (g a)) → mapM f l = Some (g <$> l).
Proof.
  induction l as [|a l IH]; intros Hf; [done|]. cbn. rewrite (Hf a) by left. cbn.
  rewrite IH by (intros b Hb; apply Hf; by right). done.
Qed.
Definition the_names (d : decl) (c : container B) (k : bool) : list name :=
  imap (λ i t, Name (with_const (const_names d k) t) (den_of c i)) (elements c).
Lemma names_spec d c k v : v_const v = const_names d k →
  mapM (bind_name c v) (seq 0 (length (elements c))) = Some (the_names d c k).
Proof.
  intros Hv. rewrite (mapM_total _ (λ i, default (Name (Ety bool_ false) (DElem 0)) (the_names d c k !! i))).
  - f_equal. apply list_eq. intros i. rewrite list_lookup_fmap. destruct (decide (i < length (elements c))) as [Hi|Hi].
    + rewrite lookup_seq_lt by done. cbn. unfold the_names. rewrite list_lookup_imap.
      destruct (lookup_lt_is_Some_2 _ _ Hi) as [t ->]. done.
    + rewrite lookup_seq_ge by lia. cbn. symmetry. apply lookup_ge_None. unfold the_names. rewrite imap_length. lia.
  - intros i [_ Hi]%elem_of_seq. cbn in Hi. destruct (lookup_lt_is_Some_2 _ _ Hi) as [t Ht].
    rewrite (bind_name_spec _ _ _ _ Ht), Hv. unfold the_names. rewrite list_lookup_imap, Ht. done.
Qed.
Lemma structured_spec d n c k cat :
  (n ≠ 0 ∧ n = length (elements c) ∧ initialises d c k cat ∧
    ∃ v, structured d n c k cat = Some (v, the_names d c k) ∧
      v_new v = (match d_ref d with NoRef => true | _ => is_prvalue cat end)) ∨
  (¬ (n ≠ 0 ∧ n = length (elements c) ∧ initialises d c k cat) ∧ structured d n c k cat = None).
Proof.
  unfold structured. rewrite tuple_size_elements. destruct (Nat.eqb_spec n 0) as [->|H0]; [right; split; [naive_solver|done]|].
  destruct (Nat.eqb_spec n (length (elements c))) as [->|Hn]; [|right; split; [naive_solver|done]].
  destruct (declare_spec d c k cat) as [(Hi & v & -> & Hv & Hnew)|(Hi & ->)]; [|right; split; [naive_solver|done]].
  left. split; [done|]. split; [done|]. split; [done|]. exists v. rewrite (names_spec _ _ _ _ Hv). done.
Qed.
(** a declaration compiles if and only if there is a name for every element and the variable can
    be initialised *)
Theorem C86_compiles d n c k cat :
  is_Some (structured d n c k cat) ↔ n ≠ 0 ∧ n = length (elements c) ∧ initialises d c k cat.
Proof.
  destruct (structured_spec d n c k cat) as [(H0 & Hn & Hi & v & -> & _)|(H & ->)]; [|split; [by intros [? ?]|done]].
  split; [done|by eexists].
Qed.
(** every name has the type of its element, const if the declaration or a container bound by
    reference is *)
Theorem C86_types d n c k cat v ns i t :
  structured d n c k cat = Some (v, ns) → elements c !! i = Some t →
  length ns = n ∧ ∃ m, ns !! i = Some m ∧ n_ty m = with_const (const_names d k) t.
Proof.
  destruct (structured_spec d n c k cat) as [(H0 & Hn & Hi & v' & -> & _)|(H & ->)]; [|done].
  intros [= <- <-] Ht. unfold the_names. rewrite imap_length, list_lookup_imap, Ht. split; [done|]. by eexists.
Qed.

(** ** Use *)
Definition rel (d : decl) (c : container B) (k : bool) (s : state) (v : view) : Prop :=
  names s = the_names d c k ∧ source_const s = k ∧
  match v with
  | Linked l => is_bits c = false ∧ source s = Some l ∧ hidden s = None ∧ length l = length (elements c)
  | Apart ns src => source s = src ∧ length ns = length (elements c) ∧ if is_bits c then temps s = ns else hidden s = Some ns
  end.
Lemma start_rel d n c k cat l s : length l = length (elements c) → start d n c k cat l = Some s → rel d c k s (first_view d c k cat l).
Proof.
  intros Hl. unfold start. destruct (structured_spec d n c k cat) as [(H0 & Hn & Hi & v & -> & Hv)|(H & ->)]; [|done].
  intros [= <-]. unfold rel, first_view. rewrite Hv. cbn [names source_const source hidden temps].
  split; [done|]. split; [by destruct (d_ref d), cat, (is_bits c)|].
  destruct (d_ref d), cat, (is_bits c) eqn:Hb, k; cbn; done.
Qed.
Lemma name_lookup d c k i : the_names d c k !! i = (λ t, Name (with_const (const_names d k) t) (den_of c i)) <$> elements c !! i.
Proof. unfold the_names. by rewrite list_lookup_imap. Qed.
Lemma bexec_rel d c k o s v : rel d c k s v →
  match vstep (writable d c k) (negb k) o v with
  | Some (r, v') => ∃ s', bexec o s = Ok r s' ∧ rel d c k s' v'
  | None => match bexec o s with Ok _ _ => False | _ => True end
  end.
Proof.
  intros (Hns & Hk & Hv).
  assert (Hout : ∀ i (ll : list V), length ll = length (elements c) → ¬ i < length ll → elements c !! i = None ∧ ll !! i = None).
  { intros i ll Hll Hi. split; apply lookup_ge_None; lia. }
  destruct o as [i|i x|i|i x]; cbn [bexec vstep].
  - (* read a name *)
    unfold bind, rd_name. rewrite Hns, name_lookup. destruct v as [l|ns src].
    + destruct Hv as (Hb & Hs & Hh & Hl). destruct (decide (i < length l)) as [Hi|Hi].
      * destruct (lookup_lt_is_Some_2 l i Hi) as [y Hy]. rewrite Hy. rewrite Hl in Hi.
        destruct (lookup_lt_is_Some_2 _ _ Hi) as [t ->]. cbn [fmap option_fmap option_map n_den]. unfold den_of, rd_e. rewrite Hb, Hh, Hs, Hy.
        eexists. split; [done|]. repeat split; done.
      * destruct (Hout i l Hl Hi) as [-> ->]. done.
    + destruct Hv as (Hs & Hl & Ht). destruct (decide (i < length ns)) as [Hi|Hi].
      * destruct (lookup_lt_is_Some_2 ns i Hi) as [y Hy]. rewrite Hy. rewrite Hl in Hi.
        destruct (lookup_lt_is_Some_2 _ _ Hi) as [t ->]. cbn [fmap option_fmap option_map n_den]. unfold den_of, rd_e, rd_temp.
        destruct (is_bits c) eqn:Hb; rewrite Ht, Hy; (eexists; split; [done|]); repeat split; rewrite ?Hb; done.
      * destruct (Hout i ns Hl Hi) as [-> ->]. done.
  - (* write a name *)
    unfold bind, wr_name. rewrite Hns, name_lookup. unfold writable. destruct v as [l|ns src].
    + destruct Hv as (Hb & Hs & Hh & Hl). case_decide as Hi.
      * destruct Hi as [Hi Hw]. destruct (elements c !! i) as [t|] eqn:Ht; [|done]. cbn [fmap option_fmap option_map n_den n_ty with_const e_const].
        apply negb_true_iff in Hw. rewrite Hw. unfold den_of, wr_e. rewrite Hb, Hh, Hs, (proj2 (Nat.ltb_lt _ _)) by done.
        eexists. split; [done|]. repeat split; cbn; rewrite ?insert_length; done.
      * destruct (elements c !! i) as [t|] eqn:Ht; [|done]. cbn [fmap option_fmap option_map n_den n_ty with_const e_const].
        pose proof (lookup_lt_Some _ _ _ Ht). destruct (e_const t || const_names d k) eqn:Ew; [done|]. exfalso. apply Hi. split; [lia|done].
    + destruct Hv as (Hs & Hl & Hd). case_decide as Hi.
      * destruct Hi as [Hi Hw]. destruct (elements c !! i) as [t|] eqn:Ht; [|done]. cbn [fmap option_fmap option_map n_den n_ty with_const e_const].
        apply negb_true_iff in Hw. rewrite Hw. unfold den_of, wr_e, wr_temp. destruct (is_bits c) eqn:Hb; rewrite Hd, (proj2 (Nat.ltb_lt _ _)) by done;
        (eexists; split; [done|]); repeat split; cbn; rewrite ?Hb, ?insert_length; done.
      * destruct (elements c !! i) as [t|] eqn:Ht; [|done]. cbn [fmap option_fmap option_map n_den n_ty with_const e_const].
        pose proof (lookup_lt_Some _ _ _ Ht). destruct (e_const t || const_names d k) eqn:Ew; [done|]. exfalso. apply Hi. split; [lia|done].
  - (* read the object *)
    unfold bind, rd_source. destruct v as [l|ns [l|]].
    + destruct Hv as (Hb & Hs & Hh & Hl). rewrite Hs. destruct (l !! i) as [y|] eqn:Hy; cbn; rewrite ?Hy; [|done].
      eexists. split; [done|]. repeat split; done.
    + destruct Hv as (Hs & Hl & Ht). rewrite Hs. destruct (l !! i) as [y|] eqn:Hy; cbn; rewrite ?Hy; [|done].
      eexists. split; [done|]. repeat split; done.
    + destruct Hv as (Hs & Hl & Ht). by rewrite Hs.
  - (* write the object *)
    unfold bind, wr_source. rewrite Hk. destruct v as [l|ns [l|]].
    + destruct Hv as (Hb & Hs & Hh & Hl). rewrite Hs. case_decide as Hi.
      * destruct Hi as [Hi Hw]. destruct k; [done|]. rewrite (proj2 (Nat.ltb_lt _ _)) by done.
        eexists. split; [done|]. repeat split; cbn; rewrite ?insert_length; done.
      * destruct k; [done|]. destruct (Nat.ltb_spec i (length l)); [|done]. naive_solver.
    + destruct Hv as (Hs & Hl & Ht). rewrite Hs. case_decide as Hi.
      * destruct Hi as [Hi Hw]. destruct k; [done|]. rewrite (proj2 (Nat.ltb_lt _ _)) by done.
        eexists. split; [done|]. repeat split; cbn; rewrite ?insert_length; done.
      * destruct k; [done|]. destruct (Nat.ltb_spec i (length l)); [|done]. naive_solver.
    + destruct Hv as (Hs & Hl & Ht). by rewrite Hs.
Qed.
Lemma brun_rel d c k os : ∀ s v, rel d c k s v → fst <$> brun os s = vrun (writable d c k) (negb k) os v.
Proof.
  induction os as [|o os IH]; intros s v Hs; [done|]. cbn [brun vrun]. pose proof (bexec_rel d c k o s v Hs) as Ho.
  destruct (vstep _ _ o v) as [[r v']|].
  - destruct Ho as (s' & -> & Hs'). rewrite <-(IH _ _ Hs'). by destruct (brun os s') as [[rs s'']|].
  - by destruct (bexec o s).
Qed.

(** after a declaration, reading and writing names and the container in any order: by reference
    the names are the elements, by value they are variables of their own that start with the
    elements' values *)
Theorem C86_names_partial d n c k cat l s os :
  is_bits c = false → length l = length (elements c) → start d n c k cat l = Some s →
  fst <$> brun os s = vrun (writable d c k) (negb k) os
    (match d_ref d, cat with
     | _, PRValue => Apart l None
     | NoRef, XValue => Apart l (Some (if k then l else moved <$> l))
     | NoRef, LValue => Apart l (Some l)
     | _, _ => Linked l
     end).
Proof.
  intros Hb Hl Hs. rewrite (brun_rel d c k os s (first_view d c k cat l)) by by eapply start_rel.
  unfold first_view. by rewrite Hb.
Qed.
(** the names of a bitset are variables of their own in any case *)
Theorem C86_bits_behaviour d n m k cat l s os :
  length l = m → start d n (CBits m) k cat l = Some s →
  fst <$> brun os s = vrun (λ i, (i <? m) && negb (const_names d k)) (negb k) os
    (Apart l (match d_ref d, cat with
     | _, PRValue => None
     | NoRef, XValue => Some (if k then l else moved <$> l)
     | _, _ => Some l
     end)).
Proof.
  intros Hl Hs. rewrite (brun_rel d (CBits m) k os s (first_view d (CBits m) k cat l)); [|eapply start_rel; [|done]; cbn; by rewrite replicate_length].
  assert (∀ os v, vrun (writable d (CBits m) k) (negb k) os v = vrun (λ i, (i <? m) && negb (const_names d k)) (negb k) os v) as ->.
  { assert (∀ i, writable d (CBits m) k i = (i <? m) && negb (const_names d k)) as Hw.
    { intros i. unfold writable. cbn [elements]. destruct (Nat.ltb_spec i m); [by rewrite lookup_replicate_2 by done|].
      by rewrite replicate_out by lia. }
    assert (∀ o v, vstep (writable d (CBits m) k) (negb k) o v = vstep (λ i, (i <? m) && negb (const_names d k)) (negb k) o v) as Hv.
    { intros o v. unfold vstep. destruct o as [| i x| |], v; try done; by rewrite Hw. }
    clear -Hv. induction os as [|o os IH]; intros v; [done|]. cbn [vrun]. rewrite Hv. destruct (vstep _ _ o v) as [[r v']|]; [|done]. by rewrite IH. }
  f_equal. unfold first_view. cbn [is_bits]. by destruct (d_ref d), cat.
Qed.
(** so assigning to a name bound to a bitset by reference compiles and leaves the bitset alone *)
Theorem C86_bits_refuted m (l : list V) i x y :
  length l = m → l !! i = Some x → x ≠ y →
  ∃ s, start (Decl false LRef) m (CBits m) false LValue l = Some s ∧
    fst <$> brun [WriteName i y; ReadName i; ReadSource i] s = Some [None; Some y; Some x].
Proof.
  intros Hl Hi Hxy. pose proof (lookup_lt_Some _ _ _ Hi) as Hlt.
  assert (is_Some (structured (Decl false LRef) m (CBits m) false LValue)) as [[v ns] E].
  { apply C86_compiles. cbn. rewrite replicate_length. split; [lia|]. split; [done|by left]. }
  assert (is_Some (start (Decl false LRef) m (CBits m) false LValue l)) as [s Hs] by (unfold start; rewrite E; by eexists).
  exists s. split; [done|]. rewrite (C86_bits_behaviour _ _ _ _ _ _ _ _ Hl Hs). cbn [vrun vstep d_ref const_names d_const orb negb].
  rewrite decide_True by (split; [lia|]; cbn; rewrite andb_true_r; apply Nat.ltb_lt; lia). cbn [fmap option_fmap option_map].
  rewrite list_lookup_insert by lia. cbn. by rewrite Hi.
Qed.
End proofs.

(** ** Examples *)
(** two types, bool and another one; everything can be copied; a moved element is 0 *)
Local Instance demo : BindLang :=
  {| B := bool; bool_ := true; copies := λ _ _ _, true; V := nat; moved := λ _, 0 |}.
Definition pair_ : container B := CTuple [Ety false false; Ety true true].
(** auto & [a, b] = t; t not const *)
Example C86_linked_case :
  is_bits pair_ = false ∧ length [7; 1] = length (elements pair_) ∧
  match start (Decl false LRef) 2 pair_ false LValue [7; 1] with
  | Some s => fst <$> brun [WriteName 0 9; ReadSource 0; WriteSource 0 4; WriteSource 1 5; ReadName 0; ReadName 1] s
                = Some [None; Some 9; None; None; Some 4; Some 5] ∧
              brun [WriteName 1 0] s = None
  | None => False
  end.
Proof. vm_compute. done. Qed.
(** auto [a, b] = std::move(t) *)
Example C86_moved_case :
  match start (Decl false NoRef) 2 pair_ false XValue [7; 1] with
  | Some s => fst <$> brun [WriteName 0 9; ReadName 0; ReadName 1; ReadSource 0; ReadSource 1] s = Some [None; Some 9; Some 1; Some 0; Some 0]
  | None => False
  end.
Proof. vm_compute. done. Qed.
(** const auto & [a, b, c] of an array; auto && of a const one *)
Example C86_const_case :
  match start (Decl true LRef) 3 (CArray (Ety false false) 3) false LValue [1; 2; 3] with
  | Some s => fst <$> brun [WriteSource 2 5; ReadName 2] s = Some [None; Some 5] ∧ brun [WriteName 2 0] s = None
  | None => False
  end ∧
  match start (Decl false RRef) 3 (CArray (Ety false false) 3) true LValue [1; 2; 3] with
  | Some s => brun [WriteName 2 0] s = None
  | None => False
  end ∧
  start (Decl false LRef) 3 (CArray (Ety false false) 3) false XValue [1; 2; 3] = None ∧
  start (Decl false LRef) 2 (CArray (Ety false false) 3) false LValue [1; 2; 3] = None.
Proof. vm_compute. done. Qed.
Example C86_get_case :
  get pair_ true XValue 0 = Some (GExpr (Ety false true) XValue (DElem 0)) ∧
  get (CArray (Ety false false) 3) false LValue 2 = Some (GExpr (Ety false false) LValue (DElem 2)) ∧
  get (CArray (Ety false false) 3) false LValue 3 = None ∧
  tuple_element pair_ 1 = Some (Ety true true) ∧ tuple_element pair_ 2 = None ∧
  tuple_element (CArray (Ety false false) 3) 7 = Some (Ety false false).
Proof. vm_compute. done. Qed.
(** auto && [a, b] of a bitset *)
Example C86_bits_case :
  match start (Decl false RRef) 2 (CBits 2) false LValue [1; 0] with
  | Some s => fst <$> brun [WriteName 0 0; WriteSource 1 1; ReadName 0; ReadName 1; ReadSource 0; ReadSource 1] s
                = Some [None; None; Some 0; Some 0; Some 1; Some 1]
  | None => False
  end.
Proof. vm_compute. done. Qed.

Print Assumptions C86_get.
Print Assumptions C86_get_bits.
Print Assumptions C86_tuple_size.
Print Assumptions C86_tuple_element_partial.
Print Assumptions C86_tuple_element_refuted.
Print Assumptions C86_compiles.
Print Assumptions C86_types.
Print Assumptions C86_names_partial.
Print Assumptions C86_bits_behaviour.
Print Assumptions C86_bits_refuted.
