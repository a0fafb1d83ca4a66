(** Every call on string_refs does what it does on parts of arrays of characters. *)
From stdpp Require Import prelude gmap.
From Coq Require Import ZArith NArith Lia.
From Verif Require Import Cpp IterModel IterSpec IterProofs ViewModel ArrayRefModel ArrayRefSpec ArrayRefProofs StringRefModel StringRefSpec.
From Verif Require StringOrder StringOrderProofs.
Local Open Scope Z_scope.
Notation lex := StringOrderProofs.lex.

(** ** Characters *)
Lemma uchar_0 c : (uchar c =? 0)%N = bool_decide (c = NUL).
Proof. by destruct c. Qed.
Lemma zlength_inv l n : zlength l n → ∃ a b, l = a ++ NUL :: b ∧ NUL ∉ a ∧ n = length a.
Proof. intros [a b Ha]. by exists a, b. Qed.
Lemma zlen_spec l n : zlen l = Some n ↔ zlength l n.
Proof.
  revert n. induction l as [|c l IH]; intros n; cbn [zlen].
  - split; [done|]. intros (a & b & E & _)%zlength_inv. by destruct a.
  - case_decide as Hc.
    + subst. split.
      * intros [= <-]. by apply (zlength_intro [] l), not_elem_of_nil.
      * intros (a & b & E & Ha & ->)%zlength_inv. destruct a as [|d a]; [done|]. injection E as <- ->.
        by destruct Ha; apply elem_of_cons; left.
    + split.
      * destruct (zlen l) as [m|] eqn:E; [|done]. intros [= <-]. destruct (zlength_inv _ _ (proj1 (IH m) eq_refl)) as (a & b & -> & Ha & ->).
        apply (zlength_intro (c :: a) b). rewrite not_elem_of_cons. split; [congruence|done].
      * intros (a & b & E & Ha & ->)%zlength_inv. destruct a as [|d a]; injection E as -> ->; [done|].
        apply not_elem_of_cons in Ha as [_ Ha]. by rewrite (proj2 (IH _) (zlength_intro a b Ha)).
Qed.
Lemma zlen_le l n : zlen l = Some n → (n < length l)%nat.
Proof. intros [a b Ha]%zlen_spec. rewrite app_length. cbn [length]. lia. Qed.
Lemma below_lex a : ∀ b, below a b = match lex a b with Lt => true | _ => false end.
Proof.
  induction a as [|x a IH]; intros [|y b]; try done. cbn [below StringOrderProofs.lex].
  destruct (N.compare_spec (uchar x) (uchar y)) as [E|Hlt|Hlt].
  - by rewrite E, N.ltb_irrefl, N.eqb_refl, IH.
  - by rewrite (proj2 (N.ltb_lt _ _)).
  - rewrite (proj2 (N.ltb_ge _ _)) by lia. by rewrite (proj2 (N.eqb_neq _ _)) by lia.
Qed.
Lemma same_lex a b : same a b = match lex a b with Eq => true | _ => false end.
Proof.
  unfold same. destruct (lex a b) eqn:E.
  - apply StringOrderProofs.lex_eq in E. by apply bool_decide_eq_true.
  - apply bool_decide_eq_false. intros ->. by rewrite (proj2 (StringOrderProofs.lex_eq b b)) in E.
  - apply bool_decide_eq_false. intros ->. by rewrite (proj2 (StringOrderProofs.lex_eq b b)) in E.
Qed.

Section range.
Context {S : Type} `{R : !Arrays S nat char}.
Implicit Types (p q : pointer nat) (w : S).
Lemma range_cons w p (c : char) l : range_at w p (c :: l) →
  pread p w = Ok c w ∧ padd p 1 w = Ok (pos p 1) w ∧ range_at w (pos p 1) l.
Proof.
  intros H. split; [|split].
  - rewrite <-(pos_0 p). by eapply pread_run.
  - rewrite <-(pos_0 p) at 1. eapply (padd_run w p _ 0 1); [done| |]; split; cbn [length]; lia.
  - destruct p as [|b o]; [done|]. destruct H as (? & (len & He & Hl) & H). cbn [pos range_at length] in *. split; [lia|].
    split; [exists len; split; [done|lia]|]. intros i v Hi. specialize (H (Datatypes.S i) v Hi).
    replace (o + 1 + Z.of_nat i) with (o + Z.of_nat (Datatypes.S i)) by lia. done.
Qed.
End range.

Section proofs.
Context `{C : ViewCfg} `{H : StringOrder.HashFn}.
Notation state := (state char).
Notation world := (world char).
Implicit Types (s : state) (v : part) (w : world) (l : list char).

Lemma length_run w l : ∀ p k n fuel, range_at w p l → zlen l = Some n → (n ≤ fuel)%nat → length_loop fuel p k w = Ok (k + Z.of_nat n) w.
Proof.
  induction l as [|c l IH]; intros p k n fuel Hp Hn Hf; [done|]. apply range_cons in Hp as (H1 & H2 & H3). cbn [zlen] in Hn.
  destruct fuel as [|fuel]; cbn [length_loop]; unfold bind; rewrite H1, uchar_0.
  - case_decide as Hc.
    + rewrite bool_decide_eq_true_2 by done. injection Hn as <-. unfold ret. f_equal. lia.
    + destruct (zlen l); [injection Hn as <-; lia|done].
  - case_decide as Hc.
    + rewrite bool_decide_eq_true_2 by done. injection Hn as <-. unfold ret. f_equal. lia.
    + rewrite bool_decide_eq_false_2 by done. destruct (zlen l) as [m|] eqn:E; [|done]. injection Hn as <-. rewrite H2.
      rewrite (IH _ _ m); [|done|done|lia]. f_equal. lia.
Qed.
Lemma compare_run w a : ∀ b p q n, range_at w p a → range_at w q b → (n ≤ length a)%nat → (n ≤ length b)%nat →
  traits_compare p q n w = Ok (lex (take n a) (take n b)) w.
Proof.
  induction a as [|x a IH]; intros b p q n Ha Hb Hna Hnb; [cbn [length] in Hna; by replace n with O by lia|].
  destruct n as [|n]; [done|]. destruct b as [|y b]; [cbn [length] in Hnb; lia|].
  apply range_cons in Ha as (H1 & H2 & H3). apply range_cons in Hb as (H1' & H2' & H3').
  cbn [traits_compare take StringOrderProofs.lex length] in *. unfold bind. rewrite H1, H1'.
  destruct (N.compare_spec (uchar x) (uchar y)) as [E|Hlt|Hlt].
  - rewrite E, N.ltb_irrefl, H2, H2'. apply IH; [done|done|lia|lia].
  - by rewrite (proj2 (N.ltb_lt _ _)).
  - rewrite (proj2 (N.ltb_ge _ _)) by lia. by rewrite (proj2 (N.ltb_lt _ _)).
Qed.
Lemma sv_compare_run w a b p q : range_at w p a → range_at w q b →
  sv_compare (p, Z.of_nat (length a)) (q, Z.of_nat (length b)) w = Ok (lex a b) w.
Proof.
  intros Ha Hb. unfold sv_compare, bind. cbn [fst snd].
  rewrite (compare_run _ _ _ _ _ _ Ha Hb) by lia.
  replace (Z.to_nat (Z.of_nat (length a) `min` Z.of_nat (length b))) with (length a `min` length b)%nat by lia.
  rewrite (StringOrderProofs.lex_min a b), Nat2Z.inj_compare. destruct (lex _ _); done.
Qed.
Lemma sv_chars_run w l : ∀ p, range_at w p l → sv_chars p (length l) w = Ok l w.
Proof.
  induction l as [|c l IH]; intros p Hp; [done|]. apply range_cons in Hp as (H1 & H2 & H3).
  cbn [length sv_chars]. unfold bind. by rewrite H1, H2, (IH _ H3).
Qed.

(** ** Views *)
Lemma view_elems s x v : wf s → view_of s x = Some v →
  s_view s !! x = Some v ∧ usable s v ∧ ∃ l, elems s v = Some l ∧ range_at (rep s) (start v) l ∧ Z.of_nat (length l) = count v.
Proof.
  intros Hwf Hv. destruct (view_usable _ _ _ Hwf Hv) as [Hx Hu]. apply view_of_inv in Hv as [_ [l Hl]].
  split; [done|]. split; [done|]. exists l. split; [done|]. by apply elems_range.
Qed.
Lemma tail_range s p l : tail_at s p = Some l → range_at (rep s) p l.
Proof.
  destruct p as [|b o]; [done|]. cbn [tail_at range_at extent load arrays arrs rep]. destruct (s_arr s !! b) as [l'|]; [|done].
  case_decide; [|done]. intros [= <-]. split; [lia|]. split.
  - exists (Z.of_nat (length l')). split; [done|]. rewrite drop_length. lia.
  - intros i v Hi. rewrite lookup_drop in Hi. rewrite (proj2 (Z.leb_le _ _)) by lia.
    replace (Z.to_nat (o + Z.of_nat i)) with (Z.to_nat o + i)%nat by lia. by rewrite Hi.
Qed.
Lemma sr_data_rep s x v : s_view s !! x = Some v → sr_data x (rep s) = Ok (start v) (rep s).
Proof. intros Hx. apply noexcept_ok. unfold bind. rewrite (get_rep _ _ _ Hx). by destruct v. Qed.
Lemma sr_size_rep s x v : 1 ≤ wbits → s_view s !! x = Some v → usable s v → sr_size x (rep s) = Ok (count v) (rep s).
Proof.
  intros Hw Hx Hv. apply noexcept_ok. unfold bind. rewrite (get_rep _ _ _ Hx). pose proof (usable_count _ _ Hw Hv).
  destruct v as [|b o n]; cbn [span fst snd pdiff count] in *.
  - unfold ret. f_equal.
  - destruct Hv as (? & ? & l & Hl & ?). rewrite decide_True by done. cbn [extent arrays arrs rep]. rewrite Hl. cbn. unfold ret. f_equal.
    rewrite to_size_small by lia. lia.
Qed.
Lemma sr_index_rep s x v i p : s_view s !! x = Some v → usable s v → place v i = Some p → sr_index x i (rep s) = Ok p (rep s).
Proof.
  intros Hx Hv Hp. apply noexcept_ok. unfold bind. rewrite (sr_data_rep _ _ _ Hx).
  destruct v as [|b o n]; [done|]. cbn [place] in Hp. case_decide as Hi; [|done]. injection Hp as <-.
  rewrite (usable_padd _ _ _ Hv) by (cbn [count]; lia). cbn [start pos pderef].
  destruct Hv as (? & ? & l & Hl & ?). cbn [extent arrays arrs rep]. rewrite Hl. cbn [fmap option_fmap option_map].
  by rewrite (proj2 (Z.leb_le _ _)), (proj2 (Z.ltb_lt _ _)) by lia.
Qed.
Lemma sr_end_rep s x v : 1 ≤ wbits → s_view s !! x = Some v → usable s v → sr_end x (rep s) = Ok (pos (start v) (count v)) (rep s).
Proof.
  intros Hw Hx Hv. apply noexcept_ok. unfold bind, sr_begin. rewrite (noexcept_ok _ _ _ _ (sr_data_rep _ _ _ Hx)).
  rewrite (sr_size_rep _ _ _ Hw Hx Hv). pose proof (usable_count _ _ Hw Hv). rewrite to_diff_small by done.
  do 2 apply noexcept_ok. apply usable_padd; [done|lia].
Qed.
Lemma sr_view_rep s x v : 1 ≤ wbits → s_view s !! x = Some v → usable s v → sr_view x (rep s) = Ok (start v, count v) (rep s).
Proof. intros Hw Hx Hv. apply noexcept_ok. unfold bind. by rewrite (sr_data_rep _ _ _ Hx), (sr_size_rep _ _ _ Hw Hx Hv). Qed.
Lemma sr_from_to_rep s x p n v : from_to s p n = Some v → sr_new_count x p n (rep s) = Ok tt (rep (set_view s x v)).
Proof.
  intros Hv. apply noexcept_ok. unfold bind. destruct p as [|b o]; cbn [from_to padd] in *.
  - case_decide; [|done]. subst. injection Hv as <-. exact (put_rep s x PNone).
  - destruct (s_arr s !! b) as [l|] eqn:Hl; [|done]. case_decide; [|done]. injection Hv as <-.
    cbn [extent arrays arrs rep]. rewrite Hl. cbn [fmap option_fmap option_map].
    rewrite (proj2 (Z.leb_le _ _)), (proj2 (Z.leb_le _ _)) by lia. apply (put_rep s x (PSub b o n)).
Qed.
Lemma sub_from_to s v o n u : usable s v → sub v o n = Some u → from_to s (pos (start v) o) n = Some u.
Proof.
  intros Hv Hu. unfold sub in Hu. case_decide as Hd; [|done]. injection Hu as <-. destruct v as [|b o' n']; cbn [start pos from_to count] in *.
  - by rewrite decide_True by lia.
  - destruct Hv as (? & ? & l & -> & ?). by rewrite decide_True by lia.
Qed.
(** remove_suffix moves the end *)
Lemma padd_back s v n : usable s v → 0 ≤ n ≤ count v →
  padd (pos (start v) (count v)) (- n) (rep s) = Ok (pos (start v) (count v - n)) (rep s).
Proof.
  destruct v as [|b o m]; cbn [usable count start padd pos].
  - intros _ ?. by replace n with 0 by lia.
  - intros (? & ? & l & Hl & ? & ?) ?. cbn [extent arrays arrs rep]. rewrite Hl. cbn [fmap option_fmap option_map].
    rewrite (proj2 (Z.leb_le _ _)), (proj2 (Z.leb_le _ _)) by lia. cbn. do 2 f_equal. lia.
Qed.

Definition agrees (m : M world sobs) s (o : outcome) : Prop :=
  match o with Bad => True | Done r s' => m (rep s) = Ok r (rep s') | Throws e => m (rep s) = Exn e (rep s) end.
Lemma sr_make_rep s x (v : option part) (m : M world unit) :
  (∀ u, v = Some u → m (rep s) = Ok tt (rep (set_view s x u))) → agrees (bind m (λ _, ret BUnit)) s (make s x v).
Proof. intros Hm. unfold make. destruct (s_view s !! x); [done|]. destruct v as [u|]; [|done]. cbn [agrees]. unfold bind. by rewrite (Hm u). Qed.
Lemma sr_change_rep s x (v : option part) (m : M world unit) :
  (∀ u, v = Some u → m (rep s) = Ok tt (rep (set_view s x u))) → agrees (bind m (λ _, ret BUnit)) s (change s x v).
Proof. intros Hm. unfold change. destruct v as [u|]; [|done]. cbn [agrees]. unfold bind. by rewrite (Hm u). Qed.
Lemma sr_ref_rep s (p : option (pointer nat)) (m : M world (pointer nat)) :
  (∀ q, p = Some q → m (rep s) = Ok q (rep s)) → agrees (bind m (λ p, ret (BPtr p))) s (ref_to s p).
Proof. intros Hm. unfold ref_to. destruct p as [q|]; [|done]. cbn [agrees]. unfold bind. by rewrite (Hm q). Qed.
Lemma ask_rep s x y f (m : M world bool) : wf s →
  (∀ v u a b, s_view s !! x = Some v → s_view s !! y = Some u → usable s v → usable s u → elems s v = Some a → elems s u = Some b →
    m (rep s) = Ok (f a b) (rep s)) → agrees (bind m (λ b, ret (BBool b))) s (ask s x y f).
Proof.
  intros Hwf Hm. unfold ask, look. destruct (view_of s x) as [v|] eqn:Hv; [|done]. destruct (view_of s y) as [u|] eqn:Hu; [|done].
  destruct (view_elems _ _ _ Hwf Hv) as (Hx & Hux & a & Ha & _). destruct (view_elems _ _ _ Hwf Hu) as (Hy & Huy & b & Hb & _).
  rewrite Ha, Hb. cbn [agrees]. unfold bind. by rewrite (Hm v u a b).
Qed.
Section comparisons.
Context (s : state) (x y : nat) (v u : part) (a b : list char) (Hw : 1 ≤ wbits).
Context (Hx : s_view s !! x = Some v) (Hy : s_view s !! y = Some u) (Hv : usable s v) (Hu : usable s u).
Context (Ha : elems s v = Some a) (Hb : elems s u = Some b).
Lemma sr_eq_rep : sr_eq x y (rep s) = Ok (match lex a b with Eq => true | _ => false end) (rep s).
Proof.
  destruct (elems_range _ _ _ Hv Ha) as [Ra Ca]. destruct (elems_range _ _ _ Hu Hb) as [Rb Cb].
  apply noexcept_ok. unfold bind. rewrite (sr_view_rep _ _ _ Hw Hx Hv), (sr_view_rep _ _ _ Hw Hy Hu). rewrite <-Ca, <-Cb.
  by rewrite (sv_compare_run _ _ _ _ _ Ra Rb).
Qed.
Lemma sr_lt_rep : sr_lt x y (rep s) = Ok (match lex a b with Lt => true | _ => false end) (rep s).
Proof.
  destruct (elems_range _ _ _ Hv Ha) as [Ra Ca]. destruct (elems_range _ _ _ Hu Hb) as [Rb Cb].
  apply noexcept_ok. unfold bind. rewrite (sr_view_rep _ _ _ Hw Hx Hv), (sr_view_rep _ _ _ Hw Hy Hu). rewrite <-Ca, <-Cb.
  by rewrite (sv_compare_run _ _ _ _ _ Ra Rb).
Qed.
End comparisons.

(** ** Calls *)
Lemma sexec_rep o s : 1 ≤ wbits → wf s → agrees (sexec o) s (sstep o s).
Proof.
  intros Hw Hwf. destruct o as [b l|b|p|p v|x|x p|x p n|x q|x y|x y|x|x|x|x|x|x|x i|x i|x n|x n|z x o|z x o n|x|x|x|x|x|x y|x y|x y|x y|x y|x y|x];
    cbn [sstep sexec]; try (unfold look; destruct (view_of s x) as [v|] eqn:Hv; [|done]; destruct (view_elems _ _ _ Hwf Hv) as (Hx & Hu & l & Hl & Hr & Hc));
    try (apply ask_rep; [done|]; intros v u a b Hx Hy Hv Hu Ha Hb).
  - destruct (s_arr s !! b) eqn:E; [done|]. case_decide; [|done]. cbn [agrees]. unfold bind, new_arr. cbn [arrs rep]. by rewrite E.
  - destruct (s_arr s !! b) eqn:E; [|done]. cbn [agrees]. unfold bind, del_arr. cbn [arrs rep]. by rewrite E.
  - destruct p as [|b i]; [done|]. destruct (s_arr s !! b) as [l|] eqn:E; [|done]. case_decide; [|done].
    destruct (l !! Z.to_nat i) as [v|] eqn:Ev; [|done]. cbn [agrees]. unfold bind. cbn [pread load arrays arrs rep]. rewrite E.
    rewrite (proj2 (Z.leb_le _ _)) by done. by rewrite Ev.
  - destruct p as [|b i]; [done|]. destruct (s_arr s !! b) as [l|] eqn:E; [|done]. case_decide; [|done]. cbn [agrees].
    unfold bind. cbn [pwrite store arrays arrs rep]. rewrite E.
    by rewrite (proj2 (Z.leb_le _ _)), (proj2 (Z.ltb_lt _ _)) by lia.
  - apply sr_make_rep. intros u [= <-]. apply noexcept_ok, (put_rep s x PNone).
  - destruct (tail_at s p) as [l|] eqn:Hp; [|done]. destruct (zlen l) as [n|] eqn:Hn; [|done]. apply sr_make_rep. intros u Hu.
    pose proof (tail_range _ _ _ Hp) as Hr. apply noexcept_ok. unfold bind.
    assert (traits_length p (rep s) = Ok (Z.of_nat n) (rep s)) as ->.
    { destruct p as [|b o]; [done|]. unfold traits_length. cbn [arrs rep]. cbn [tail_at] in Hp. destruct (s_arr s !! b) as [l'|]; [|done].
      case_decide; [|done]. injection Hp as <-. apply (length_run _ _ _ 0 n _ Hr Hn). apply zlen_le in Hn. rewrite drop_length in Hn. lia. }
    pose proof (sr_from_to_rep s x _ _ _ Hu) as Hs. unfold sr_new_count, bind in Hs. unfold noexcept in Hs.
    destruct (padd p (Z.of_nat n) (rep s)) as [q w|e w|f|]; done.
  - apply sr_make_rep. intros u Hu. by apply sr_from_to_rep.
  - apply sr_make_rep. intros u Hu. apply noexcept_ok. by apply sr_from_to_rep.
  - apply sr_make_rep. intros u Hu. unfold sr_copy, bind. by rewrite (get_rep _ _ _ Hu), put_rep.
  - destruct (s_view s !! x) eqn:Hx; [|done]. destruct (s_view s !! y) as [v|] eqn:Hy; [|done]. cbn [agrees]. unfold sr_assign, bind.
    by rewrite (get_rep _ _ _ Hx), (get_rep _ _ _ Hy), put_rep.
  - destruct (s_view s !! x) eqn:Hx; [|done]. cbn [agrees]. unfold sr_destroy, del_view, bind. rewrite (get_rep _ _ _ Hx). unfold ret. f_equal.
    unfold rep, set_views. cbn [arrs views s_arr s_view]. by rewrite fmap_delete.
  - cbn [agrees]. unfold bind. by rewrite (sr_data_rep _ _ _ Hx).
  - cbn [agrees]. unfold bind. by rewrite (sr_size_rep _ _ _ Hw Hx Hu).
  - cbn [agrees]. unfold bind, sr_empty. erewrite noexcept_ok; [reflexivity|]. unfold bind. rewrite (sr_size_rep _ _ _ Hw Hx Hu). unfold ret. f_equal.
    destruct (Z.eqb_spec (count v) 0); symmetry; [by apply bool_decide_eq_true|by apply bool_decide_eq_false].
  - apply sr_ref_rep. intros p Hp. apply noexcept_ok. by eapply sr_index_rep.
  - apply sr_ref_rep. intros p Hp. apply noexcept_ok. unfold bind. rewrite (sr_size_rep _ _ _ Hw Hx Hu).
    assert (0 ≤ count v - 1) by (destruct v as [|b o n]; [done|]; cbn [place] in Hp; case_decide; [cbn [count]; lia|done]).
    pose proof (usable_count _ _ Hw Hu). rewrite to_size_small by lia. by eapply sr_index_rep.
  - apply sr_ref_rep. intros p Hp. by eapply sr_index_rep.
  - case_decide; [|done]. case_decide.
    + unfold sr_at. apply sr_ref_rep. intros p Hp. unfold bind. rewrite (sr_size_rep _ _ _ Hw Hx Hu).
      rewrite (proj2 (Z.leb_gt _ _)) by lia. by eapply sr_index_rep.
    + cbn [agrees]. unfold sr_at, bind. rewrite (sr_size_rep _ _ _ Hw Hx Hu). by rewrite (proj2 (Z.leb_le _ _)) by lia.
  - apply sr_change_rep. intros u Hs. apply noexcept_ok. unfold bind. rewrite (get_rep _ _ _ Hx), span_pos. cbn [fst snd].
    unfold sub in Hs. case_decide; [|done]. rewrite (usable_padd _ _ _ Hu) by lia. injection Hs as <-. rewrite <-put_rep. f_equal.
    destruct v as [|b o m]; [done|]. cbn [span start pos count]. do 2 f_equal. lia.
  - case_decide; [|done]. apply sr_change_rep. intros u Hs. apply noexcept_ok. unfold bind. rewrite (get_rep _ _ _ Hx), span_pos. cbn [fst snd].
    unfold sub in Hs. case_decide; [|done]. rewrite (padd_back _ _ _ Hu) by lia. injection Hs as <-. rewrite <-put_rep. f_equal.
    destruct v as [|b o m]; [done|]. cbn [span start pos count]. f_equal; f_equal; lia.
  - apply sr_make_rep. intros u Hs. apply noexcept_ok. unfold bind. rewrite (sr_data_rep _ _ _ Hx).
    pose proof (usable_count _ _ Hw Hu). pose proof (sub_from_to _ _ _ _ _ Hu Hs) as Hf.
    assert (0 ≤ o ∧ 0 ≤ count v - o) as [??] by (unfold sub in Hs; case_decide; [lia|done]).
    rewrite (usable_padd _ _ _ Hu) by lia. rewrite (sr_size_rep _ _ _ Hw Hx Hu). rewrite to_size_small by lia. by apply sr_from_to_rep.
  - apply sr_make_rep. intros u Hs. apply noexcept_ok. unfold bind. rewrite (sr_data_rep _ _ _ Hx). pose proof (sub_from_to _ _ _ _ _ Hu Hs) as Hf.
    assert (0 ≤ o ∧ o ≤ count v) as [??] by (unfold sub in Hs; case_decide; [lia|done]).
    rewrite (usable_padd _ _ _ Hu) by lia. by apply sr_from_to_rep.
  - cbn [agrees]. unfold bind, sr_begin. by rewrite (noexcept_ok _ _ _ _ (sr_data_rep _ _ _ Hx)).
  - cbn [agrees]. unfold bind. rewrite (sr_end_rep _ _ _ Hw Hx Hu). by destruct v.
  - cbn [agrees]. unfold bind, sr_rbegin. rewrite (noexcept_ok _ _ _ _ (sr_end_rep _ _ _ Hw Hx Hu)). by destruct v.
  - cbn [agrees]. unfold bind, sr_rend, sr_begin. by rewrite (noexcept_ok _ _ _ _ (noexcept_ok _ _ _ _ (sr_data_rep _ _ _ Hx))).
  - cbn [agrees]. unfold bind. by rewrite (sr_view_rep _ _ _ Hw Hx Hu).
  - rewrite same_lex. by eapply sr_eq_rep.
  - rewrite same_lex. apply noexcept_ok. unfold bind. by erewrite sr_eq_rep.
  - rewrite below_lex. by eapply sr_lt_rep.
  - rewrite below_lex. apply noexcept_ok. by eapply (sr_lt_rep s y x).
  - rewrite below_lex, same_lex. apply noexcept_ok. unfold bind. unfold sr_gt. erewrite noexcept_ok; [|by eapply (sr_lt_rep s y x)].
    rewrite (StringOrderProofs.lex_flip a b). by destruct (lex a b).
  - rewrite below_lex, same_lex. apply noexcept_ok. unfold bind. erewrite sr_lt_rep by done.
    rewrite (StringOrderProofs.lex_flip a b). by destruct (lex a b).
  - rewrite Hl. cbn [agrees]. 
    assert (sr_hash x (rep s) = Ok (StringOrder.hash_bytes l) (rep s)) as Eh; [|unfold bind; by rewrite Eh]. apply noexcept_ok. unfold bind. rewrite (sr_view_rep _ _ _ Hw Hx Hu). cbn [fst snd]. rewrite <-Hc, Nat2Z.id. by rewrite (sv_chars_run _ _ _ Hr).
Qed.

Lemma sr_make_wf s x (v : option part) r s' : wf s → make s x v = Done r s' →
  (∀ u, v = Some u → match u with PNone => True | PSub _ o n => 0 ≤ o ∧ 0 ≤ n end) → wf s'.
Proof.
  intros [H1 H2] Hm Hu. unfold make in Hm. destruct (s_view s !! x); [done|]. destruct v as [u|]; [|done]. injection Hm as _ <-.
  split; [done|]. intros y v. cbn [s_view set_view]. intros [[<- <-]|[_ ?]]%lookup_insert_Some; [by apply Hu|by eapply H2].
Qed.
Lemma sr_change_wf s x (v : option part) r s' : wf s → change s x v = Done r s' →
  (∀ u, v = Some u → match u with PNone => True | PSub _ o n => 0 ≤ o ∧ 0 ≤ n end) → wf s'.
Proof.
  intros [H1 H2] Hm Hu. unfold change in Hm. destruct v as [u|]; [|done]. injection Hm as _ <-.
  split; [done|]. intros y v. cbn [s_view set_view]. intros [[<- <-]|[_ ?]]%lookup_insert_Some; [by apply Hu|by eapply H2].
Qed.
Lemma ask_wf s x y f r s' : wf s → ask s x y f = Done r s' → wf s'.
Proof.
  unfold ask, look. intros Hwf. destruct (view_of s x) as [v|]; [|done]. destruct (view_of s y) as [u|]; [|done].
  destruct (elems s v); [|done]. destruct (elems s u); [|done]. by intros [= _ <-].
Qed.
Lemma sr_step_wf o s r s' : wf s → sstep o s = Done r s' → wf s'.
Proof.
  intros Hwf Hs. pose proof Hwf as [H1 H2].
  destruct o as [b l|b|p|p v|x|x p|x p n|x q|x y|x y|x|x|x|x|x|x|x i|x i|x n|x n|z x o|z x o n|x|x|x|x|x|x y|x y|x y|x y|x y|x y|x];
    cbn [sstep] in Hs; try (by eapply ask_wf);
    try (unfold look in Hs; destruct (view_of s x) as [v|] eqn:Hv; [|done]; apply (view_usable _ _ _ Hwf) in Hv as [Hx Hv]);
    try (by injection Hs as _ <-); try (unfold ref_to in Hs; destruct (place v _); [by injection Hs as _ <-|done]);
    try (eapply sr_make_wf; [done..|]; intros u Hu; by eapply sub_wf).
  - destruct (s_arr s !! b) eqn:E; [done|]. case_decide; [|done]. injection Hs as _ <-. split; [|done].
    intros b' l'. cbn [s_arr]. intros [[<- <-]|[_ ?]]%lookup_insert_Some; [done|by eapply H1].
  - destruct (s_arr s !! b) eqn:E; [|done]. injection Hs as _ <-. split; [|done].
    intros b' l'. cbn [s_arr]. intros [_ ?]%lookup_delete_Some. by eapply H1.
  - destruct p as [|b i]; [done|]. destruct (s_arr s !! b) as [l|]; [|done]. case_decide; [|done]. destruct (l !! Z.to_nat i); [|done].
    by injection Hs as _ <-.
  - destruct p as [|b i]; [done|]. destruct (s_arr s !! b) as [l|] eqn:E; [|done]. case_decide; [|done]. injection Hs as _ <-. split; [|done].
    intros b' l'. cbn [s_arr]. intros [[<- <-]|[_ ?]]%lookup_insert_Some; [rewrite insert_length|]; by eapply H1.
  - eapply sr_make_wf; [done..|]. by intros u [= <-].
  - destruct (tail_at s p) as [l|]; [|done]. destruct (zlen l); [|done]. eapply sr_make_wf; [done..|]. intros u Hu. by eapply from_to_wf.
  - eapply sr_make_wf; [done..|]. intros u Hu. by eapply from_to_wf.
  - eapply sr_make_wf; [done..|]. intros u Hu. by eapply from_to_wf.
  - eapply sr_make_wf; [done..|]. intros u Hu. by eapply H2.
  - destruct (s_view s !! x) eqn:Hx; [|done]. destruct (s_view s !! y) as [v|] eqn:Hy; [|done]. injection Hs as _ <-. split; [done|].
    intros z u. cbn [s_view set_view]. intros [[<- <-]|[_ ?]]%lookup_insert_Some; [by eapply H2|by eapply H2].
  - destruct (s_view s !! x) eqn:Hx; [|done]. injection Hs as _ <-. split; [done|].
    intros z u. cbn [s_view]. intros [_ ?]%lookup_delete_Some. by eapply H2.
  - case_decide; [|done]. case_decide; [|done]. unfold ref_to in Hs. destruct (place v i); [by injection Hs as _ <-|done].
  - eapply sr_change_wf; [done..|]. intros u Hu. by eapply sub_wf.
  - case_decide; [|done]. eapply sr_change_wf; [done..|]. intros u Hu. by eapply sub_wf.
  - destruct (elems s v); [|done]. by injection Hs as _ <-.
Qed.
Lemma srrun_rep os : 1 ≤ wbits → ∀ s rs s', wf s → srun os s = Some (rs, s') → srrun os (rep s) = Finished rs (rep s') ∧ wf s'.
Proof.
  intros Hw. induction os as [|o os IH]; intros s rs s' Hwf Hs; cbn [srun srrun] in *.
  - by injection Hs as <- <-.
  - pose proof (sexec_rep o s Hw Hwf) as Ho. destruct (sstep o s) as [|r s1|e] eqn:E; [done| |]; cbn [agrees] in Ho.
    + destruct (srun os s1) as [[rs1 s2]|] eqn:E1; [|done]. injection Hs as <- <-.
      destruct (IH _ _ _ (sr_step_wf _ _ _ _ Hwf E) E1) as [E2 ?]. by rewrite Ho, E2.
    + destruct (srun os s) as [[rs1 s2]|] eqn:E1; [|done]. injection Hs as <- <-.
      destruct (IH _ _ _ Hwf E1) as [E2 ?]. by rewrite Ho, E2.
Qed.
Lemma sr_reachable_rep w s : 1 ≤ wbits → reachable w s → w = rep s ∧ wf s.
Proof.
  intros Hw (os & rs & Hs & Hr). destruct (srrun_rep os Hw _ _ _ wf_init Hs) as [E ?].
  assert (rep init_state = init_world (A:=char)) as Ei by (unfold rep; cbn [s_arr s_view init_state]; by rewrite fmap_empty). rewrite Ei in E. rewrite E in Hr. by injection Hr as <-.
Qed.
End proofs.
