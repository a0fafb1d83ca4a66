(** C106: pointers, references and iterators to the elements of a vector stay valid when those of std::vector do.

    They are all addresses: a block and the index in it. [rd] reads what is there, and is stuck if there is no
    living element. *)
From stdpp Require Import prelude gmap.
From Coq Require Import ZArith Lia.
From Verif Require Import Cpp VectorModel VectorSpec VectorMem VectorProofs VectorOps VectorOps2 VectorOps3
  VectorHistory VectorExtra VectorProps VectorCostProps VectorStableSpec VectorStable.
Local Open Scope nat_scope.

Section props.
Context `{C : VecCfg} (Hcfg : cfg_ok).
Notation state := (gmap nat (list V)).

(** the address of element [i] of [x], as operator[] forms it *)
Definition address (x i : nat) : M world ptr := v <- get_vec x ;; ret (v_ptr v, i).

Lemma address_inv x i p w w' : address x i w = Ok p w' → ∃ v, objs w !! x = Some v ∧ p = (v_ptr v, i) ∧ w' = w.
Proof.
  unfold address, get_vec, bind. destruct (objs w !! x) as [v|]; [|done]. intros [= <- <-]. eauto.
Qed.
Lemma address_eq x i w v : objs w !! x = Some v → address x i w = Ok (v_ptr v, i) w.
Proof. intros H. unfold address, bind, get_vec. by rewrite H. Qed.
Lemma address_reads w m x l v i a : wf w m → m !! x = Some l → objs w !! x = Some v → l !! i = Some a →
  rd (v_ptr v, i) w = Ok a w.
Proof.
  intros Hw Hl Hx Ha. pose proof (index_eq _ _ _ _ _ _ Hw Hl Ha) as H. unfold vec_index in H.
  erewrite bind_ok in H by by apply get_vec_eq. done.
Qed.

(** an element that stays is found at its old address: it is element [i] of [y] now, and has the value that the
    call is to give to that *)
Theorem C106_call_partial o w m x y l i p n c r w' : reachable w m → sstep o m ≠ Bad →
  m !! x = Some l → i < length l → address x i w = Ok p w → vec_size x w = Ok n w → vec_capacity x w = Ok c w →
  heir o m n c x i = Some y → ¬ grows o x n → vexec o w = Ok r w' →
  ∃ m' l' a, sstep o m = Done r m' ∧ m' !! y = Some l' ∧ l' !! i = Some a ∧
    address y i w' = Ok p w' ∧ rd p w' = Ok a w'.
Proof.
  intros Hre Hb Hl Hi Hp Hn Hc Hy Hg He. pose proof (reachable_wf Hcfg _ _ Hre) as Hw.
  apply address_inv in Hp as (v & Hx & -> & _). pose proof (vrep_siz _ _ _ (wf_rep _ _ _ _ _ Hw Hx Hl)) as Hs.
  unfold vec_size in Hn. erewrite bind_ok in Hn by by apply get_vec_eq. injection Hn as <-.
  unfold vec_capacity in Hc. erewrite bind_ok in Hc by by apply get_vec_eq. injection Hc as <-.
  pose proof (call_ok Hcfg o w m Hw Hb) as Hok. rewrite He in Hok. destruct Hok as (m' & Hd & Hw' & _).
  assert (Hi' : i < v_siz v) by lia.
  destruct (heir_buffer Hcfg _ _ _ _ _ _ _ _ _ Hw Hb Hx Hi' Hy Hg He) as (v' & Hx' & Ep).
  rewrite Hs in Hy. destruct (heir_in _ _ _ _ _ _ _ _ _ Hd Hl Hi Hy) as (l' & Hl' & Hlt).
  destruct (lookup_lt_is_Some_2 _ _ Hlt) as [a Ha].
  exists m', l', a. rewrite <-Ep. split_and!; [done..|by apply address_eq|by eapply address_reads].
Qed.
(** after an exception all elements are where they were *)
Theorem C106_exception_partial o w m x l i p a e w' : reachable w m → sstep o m ≠ Bad →
  m !! x = Some l → l !! i = Some a → address x i w = Ok p w → vexec o w = Exn e w' →
  address x i w' = Ok p w' ∧ rd p w' = Ok a w'.
Proof.
  intros Hre Hb Hl Ha Hp He. pose proof (reachable_wf Hcfg _ _ Hre) as Hw.
  apply address_inv in Hp as (v & Hx & -> & _). pose proof (call_ok Hcfg o w m Hw Hb) as Hok. rewrite He in Hok.
  destruct Hok as (Hw' & Ho & _). rewrite <-Ho in Hx. split; [by apply address_eq|by eapply address_reads].
Qed.
(** but resize to more elements moves all of them, however large the capacity is *)
Theorem C106_resize_refuted o w m x l i p k r w' : reachable w m → m !! x = Some l → i < length l →
  address x i w = Ok p w → (o = VResize x k ∨ ∃ a v, o = VResizeFill x k a ∧ sarg m a = Some v) → length l < k →
  vexec o w = Ok r w' → rd p w' = Stuck UseAfterFree.
Proof.
  intros Hre Hl Hi Hp Ho Hk He. pose proof (reachable_wf Hcfg _ _ Hre) as Hw.
  apply address_inv in Hp as (v & Hx & -> & _).
  assert (∃ m' v', wf w' m' ∧ objs w' = <[x:=v']> (objs w) ∧ v_ptr v' = Some (nextb w)) as (m' & v' & Hw' & Hobj & Hp').
  { destruct Ho as [->|(a & b & -> & Ha)]; cbn [vexec] in He; unfold obs_unit, bind in He.
    - pose proof (resize_run Hcfg x k w m l v Hw Hl Hx) as H. unfold run_to in H.
      destruct (vec_resize x k w) as [u w1|e w1|g|]; try done. injection He as <- <-.
      destruct H as (Hw1 & _ & [[? _]|(_ & Ho & _)]); [lia|]. eauto.
    - pose proof (resize_fill_run Hcfg x k a b w m l v Hw Hl Hx Ha) as H. unfold run_to in H.
      destruct (vec_resize_fill x k a w) as [u w1|e w1|g|]; try done. injection He as <- <-.
      destruct H as (Hw1 & _ & [[? _]|(_ & Ho & _)]); [lia|]. eauto. }
  pose proof (wf_rep _ _ _ _ _ Hw Hx Hl) as Hr. destruct (v_ptr v) as [b|] eqn:Hb.
  2:{ destruct (vrep_none _ _ _ Hr Hb) as [_ ->]. cbn [length] in Hi. lia. }
  pose proof (vrep_block _ _ _ _ Hr Hb) as Hh. pose proof (proj2 Hw _ _ Hh) as Hlt.
  unfold rd, get_block, bind. cbn [fst]. destruct (heap w' !! b) as [c|] eqn:Hc; [|done]. exfalso.
  destruct (inv_own _ _ _ (proj1 Hw') _ _ Hc) as (z & u & Hz & Hu). rewrite Hobj in Hz.
  destruct (decide (x = z)) as [<-|Hne].
  - rewrite lookup_insert in Hz. injection Hz as <-. rewrite Hp' in Hu. injection Hu as E. lia.
  - rewrite lookup_insert_ne in Hz by done. by pose proof (inv_sep _ _ _ (proj1 Hw) _ _ _ _ _ Hx Hz Hb Hu).
Qed.
End props.

(** vector 0 has ten elements and room for twenty; what a pointer to element 4 reads after a call *)
Definition roomy : list (@vop good) := ten ++ [VReserve 0 20].
Definition later_read (os : list (@vop good)) (i : nat) : option (res (@world good) nat) :=
  p ← @check good _ (λ w _, match @address good 0 i w with Ok p _ => Some p | _ => None end) roomy;
  p ← p; @check good _ (λ w _, @rd good p w) (roomy ++ os).
Definition value {S} (r : option (res S nat)) : option nat := match r with Some (Ok a _) => Some a | _ => None end.
Definition dangles {S} (r : option (res S nat)) : bool := match r with Some (Stuck UseAfterFree) => true | _ => false end.
Example C106_call_case :
  value (later_read [] 4) = Some 4 ∧
  value (later_read [VPushBack 0 (val 7); @VInsertInput good 0 5 [1; 2; 3]] 4) = Some 4 ∧
  value (later_read [@VEmplace good 0 6 (@EMove good 0 4)] 4) = Some (@moved good 4) ∧
  value (later_read [VNewMove 1 0; VNew 2; VSwap 1 2; VErase 2 5 8; VPopBack 2] 4) = Some 4 ∧
  value (later_read [VErase1 0 2] 4) = Some 5 ∧
  dangles (later_read [VReserve 0 21] 4) = true.
Proof. vm_compute. done. Qed.
Example C106_heir_case :
  let m : gmap nat (list nat) := <[0:=seq 0 10]> ∅ in
  let h o := @heir good o m 10 20 0 4 in
  h (VPushBack 0 (val 7)) = Some 0 ∧ h (@VInsertInput good 0 5 [1; 2; 3]) = Some 0 ∧ h (VNewMove 1 0) = Some 1 ∧
  h (VErase1 0 2) = None ∧ h (VReserve 0 21) = None ∧ h (VResize 0 20) = Some 0 ∧ h (@VInsertFill good 0 4 1 (@CVal good 3)) = None.
Proof. vm_compute. done. Qed.
(** the second allocation fails, that of an insertion in the middle of a full vector *)
Example C106_exception_case :
  let C := cfg (λ k, k =? 1) (λ _, false) in
  let os : list (@vop C) := VNew 0 :: ((λ a : nat, VPushBack 0 (ECopy (CVal (a : @V C)))) <$> seq 0 10) in
  let o : @vop C := VInsertFill 0 2 5 (CElem 0 7) in
  @check C _ (λ w _, match @address C 0 4 w, @vexec C o w with
    | Ok p _, Exn BadAlloc w' => match @rd C p w' with Ok a _ => Some a | _ => None end
    | _, _ => None
    end) os = Some (Some 4).
Proof. vm_compute. done. Qed.
Example C106_resize_case :
  dangles (later_read [VResize 0 11] 4) = true ∧ value (later_read [VResize 0 9] 4) = Some 4 ∧
  dangles (later_read [@VResizeFill good 0 20 (@CElem good 0 4)] 4) = true.
Proof. vm_compute. done. Qed.

Print Assumptions C106_call_partial.
Print Assumptions C106_exception_partial.
Print Assumptions C106_resize_refuted.
