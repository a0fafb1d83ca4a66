(** Property C61 for string. *)
From stdpp Require Import prelude gmap.
From Coq Require Import ZArith Lia.
From Verif Require Import Cpp StringModel StringSpec StringMem StringRep StringHistory StringExtra StringProps.
From Verif Require Import IterModel IterSpec IterProofs StringIter.
Local Open Scope Z_scope.

Section props.
Context `{C : StrCfg} (Hcfg : cfg_ok).
Notation state := (gmap nat (list char)).

Lemma string_spans w m x l : reachable w m → m !! x = Some l →
  spans w (str_begin x) (str_end x) (str_rbegin x) (str_rend x) l.
Proof.
  intros Hre Hl. destruct (reachable_wf Hcfg _ _ Hre) as (ρ & HR & Hrel). destruct (rel_get _ _ _ _ Hrel Hl) as (r & Hx & Hh).
  pose proof (rep_cells _ _ _ _ HR Hx) as Hc. pose proof Hh as (Hn & rest & Hcells). set (p := At (hp x r) 0).
  assert (str_begin x w = Ok p w) as Hb.
  { apply noexcept_ok. erewrite bind_ok by by eapply str_data_eq. done. }
  assert (Z.of_nat (length l) < 2 ^ (Z.of_nat wbits - 1)) as Hd.
  { pose proof (rep_shape _ _ HR _ _ Hx) as Hs. destruct Hcfg as (_ & _ & _ & Hw & Hf). pose proof (ptrdiff_half Hw) as Hp.
    assert (2 ^ Z.of_nat wbits = 2 * 2 ^ (Z.of_nat wbits - 1)) as Hz by (rewrite <-Z.pow_succ_r by lia; f_equal; lia).
    pose proof (f_equal length Hcells) as E. rewrite app_length, fmap_length in E. cbn [length] in E. unfold shape in Hs.
    destruct (r_home r); [lia|]. unfold footprint, sso_size in *. lia. }
  assert (range_at w p l) as Ha.
  { cbn [range_at p]. split; [done|]. split.
    - exists (Z.of_nat (length (r_cells r))). cbn [extent string_arrays]. rewrite Hc. split; [done|]. rewrite Hcells, app_length, fmap_length. lia.
    - intros i a Hi. cbn [load string_arrays]. rewrite (proj2 (Z.leb_le _ _)) by lia. replace (Z.to_nat (0 + Z.of_nat i)) with i by lia.
      unfold rd. cbn [fst snd]. rewrite Hc, Hcells. rewrite lookup_app_l by (rewrite fmap_length; by eapply lookup_lt_Some).
      by rewrite list_lookup_fmap, Hi. }
  assert (str_end x w = Ok (pos p (Z.of_nat (length l))) w) as He.
  { apply noexcept_ok. erewrite bind_ok by done. erewrite bind_ok by by eapply str_size_eq. rewrite Hn. unfold to_diff.
    rewrite (proj2 (Z.ltb_lt _ _)) by done. pose proof (it_add_run w p l 0 (Z.of_nat (length l)) Ha) as E. rewrite pos_0 in E. apply E; split; lia. }
  exists p. split; [done|]. split; [done|]. split; [by apply noexcept_ok|]. split; [by apply noexcept_ok|done].
Qed.
Theorem C61_string w m x l :
  reachable w m → m !! x = Some l → traversed w (str_begin x) (str_end x) (str_rbegin x) (str_rend x) l.
Proof. intros Hre Hl. by apply spans_traversed, (string_spans w m). Qed.
(** the random access theorems of IterProps.v hold for the iterators of a string *)
Theorem C61_string_range w m x l :
  reachable w m → m !! x = Some l → ∃ p, str_begin x w = Ok p w ∧ str_end x w = Ok (pos p (Z.of_nat (length l))) w ∧ range_at w p l.
Proof. intros Hre Hl. destruct (string_spans w m x l Hre Hl) as (p & ? & ? & _ & _ & ?). by exists p. Qed.
End props.

Example C61_string_case : ∃ w m, @reachable good w m ∧
  is abcdef (m !! 0%nat) &&
  match range_for 6 (str_begin 0) (@str_end good 0) w with Ok (Some vs) _ => is abcdef (Some (snd <$> vs)) | _ => false end &&
  match range_for_reverse 6 (@str_rbegin good 0) (str_rend 0) w with Ok (Some vs) _ => is (reverse abcdef) (Some (snd <$> vs)) | _ => false end = true.
Proof. apply (check_reachable _ _ (str 0 abcdef)). by vm_compute. Qed.

Print Assumptions C61_string.
Print Assumptions C61_string_range.
