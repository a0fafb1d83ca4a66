(** Property C61 for vector. *)
From stdpp Require Import prelude gmap.
From Coq Require Import ZArith Lia.
From Verif Require Import Cpp VectorModel VectorSpec VectorMem VectorProofs VectorOps VectorHistory VectorProps.
From Verif Require Import IterModel IterSpec IterProofs VectorIter.
Local Open Scope Z_scope.

Section props.
Context `{C : VecCfg} (Hcfg : cfg_ok).
Notation state := (gmap nat (list V)).

Lemma vector_spans w m x l : reachable w m → m !! x = Some l →
  spans w (vec_begin x) (vec_end x) (vec_rbegin x) (vec_rend x) l.
Proof.
  intros Hre Hl. destruct (wf_get _ _ _ _ (reachable_wf Hcfg _ _ Hre) Hl) as (v & Hx & Hr).
  set (p := match v_ptr v with None => Null | Some b => At b 0 end : pointer nat).
  assert (vec_begin x w = Ok p w) as Hb.
  { apply noexcept_ok. unfold vec_data, bind, get_vec. by rewrite Hx. }
  assert (v_siz v = length l ∧ Z.of_nat (length l) < 2 ^ (Z.of_nat wbits - 1) ∧ range_at w p l) as (Hn & Hd & Ha).
  { pose proof (max_cap_half Hcfg). unfold vrep in Hr. destruct (v_ptr v) as [b|] eqn:Eb; subst p; cbn [range_at].
    - destruct Hr as (_ & Hc & Hs & Hle & Hm). split; [done|]. split; [lia|]. split; [done|]. split.
      + exists (Z.of_nat (length (cells l (v_cap v)))). cbn [extent vector_arrays]. rewrite Hc. split; [done|]. unfold cells.
        rewrite app_length, fmap_length. lia.
      + intros i a Hi. cbn [load vector_arrays]. rewrite (proj2 (Z.leb_le _ _)) by lia. replace (Z.to_nat (0 + Z.of_nat i)) with i by lia.
        eapply rd_eq; [done|]. unfold cells. rewrite lookup_app_l by (rewrite fmap_length; by eapply lookup_lt_Some).
        by rewrite list_lookup_fmap, Hi.
    - destruct Hr as (-> & ->). split; [done|]. split; [|done]. cbn [length]. lia. }
  assert (vec_end x w = Ok (pos p (Z.of_nat (length l))) w) as He.
  { apply noexcept_ok. unfold bind at 1. rewrite Hb. unfold bind. unfold vec_size, bind, get_vec. rewrite Hx. unfold ret. rewrite Hn. unfold to_diff.
    rewrite (proj2 (Z.ltb_lt _ _)) by done. pose proof (it_add_run w p l 0 (Z.of_nat (length l)) Ha) as E. rewrite pos_0 in E. apply E; split; lia. }
  exists p. split; [done|]. split; [done|]. split; [by apply noexcept_ok|]. split; [by apply noexcept_ok|done].
Qed.
Theorem C61_vector w m x l :
  reachable w m → m !! x = Some l → traversed w (vec_begin x) (vec_end x) (vec_rbegin x) (vec_rend x) l.
Proof. intros Hre Hl. by apply spans_traversed, (vector_spans w m). Qed.
(** the random access theorems of IterProps.v hold for the iterators of a vector *)
Theorem C61_vector_range w m x l :
  reachable w m → m !! x = Some l → ∃ p, vec_begin x w = Ok p w ∧ vec_end x w = Ok (pos p (Z.of_nat (length l))) w ∧ range_at w p l.
Proof. intros Hre Hl. destruct (vector_spans w m x l Hre Hl) as (p & ? & ? & _ & _ & ?). by exists p. Qed.
End props.

Example C61_vector_case : ∃ w m, @reachable good w m ∧
  is [1; 2; 3]%nat (m !! 0%nat) &&
  match range_for 3 (vec_begin 0) (vec_end 0) w with Ok (Some vs) _ => bool_decide (snd <$> vs = [1; 2; 3]%nat) | _ => false end &&
  match range_for_reverse 3 (vec_rbegin 0) (vec_rend 0) w with Ok (Some vs) _ => bool_decide (snd <$> vs = [3; 2; 1]%nat) | _ => false end = true.
Proof. apply (check_reachable _ _ _ ([VNew 0] ++ pushes 0 [1; 2; 3]%nat)). by vm_compute. Qed.

Print Assumptions C61_vector.
Print Assumptions C61_vector_range.
