(** Rings of degree 16 and 32 on the same moduli, ciphertexts and keys, for the examples of the change of the ring degree. *)
From Verif Require Import Word Arith PolySpec PolyProofs Ring RingProofs NTT RingOps RNSSpec RowProofs OpsProofs OpsProps BasisExt BasisProps Gadget Frlwe FrlweSetup GadgetSpec Repr FrlweProps BasisEx FrlweEx RlweSpec Rlwe RlweKeys
  AutoProps RlweEx Examples EncSpec CI CISpec CIEx Degree DegreeSpec DegreeTop DegreeKeys.
Local Open Scope Z_scope.

Definition d16 : Ring := Eval vm_compute in ring_of 16 [193; 257; 449].
Definition d16P : Ring := Eval vm_compute in ring_of 16 [577; 641].
Definition d32P : Ring := Eval vm_compute in ring_of 32 [577; 641].
Definition ci16P : Ring := Eval vm_compute in
  match NewRingConjugateInvariant 1000 16 [577; 641] with inl r => r | inr _ => mkRing 0 0 [] 0 [] end.

Lemma d16_built : built_ring 9 d16.
Proof.
  exists 1000%nat, 16, [193; 257; 449]. split; [vm_compute; reflexivity|]. split; [vm_compute; discriminate|].
  intros q Hq. cbn in Hq. destruct Hq as [<- | [<- | [<- | []]]]; vm_compute; discriminate.
Qed.
Lemma std32_built : built_ring 9 std32.
Proof.
  exists 1000%nat, 32, [193; 257; 449]. split; [vm_compute; reflexivity|]. split; [vm_compute; discriminate|].
  intros q Hq. cbn in Hq. destruct Hq as [<- | [<- | [<- | []]]]; vm_compute; discriminate.
Qed.
Lemma d16P_built : built_ring 9 d16P.
Proof.
  exists 1000%nat, 16, [577; 641]. split; [vm_compute; reflexivity|]. split; [vm_compute; discriminate|].
  intros q Hq. cbn in Hq. destruct Hq as [<- | [<- | []]]; vm_compute; discriminate.
Qed.
Lemma d32P_built : built_ring 9 d32P.
Proof.
  exists 1000%nat, 32, [577; 641]. split; [vm_compute; reflexivity|]. split; [vm_compute; discriminate|].
  intros q Hq. cbn in Hq. destruct Hq as [<- | [<- | []]]; vm_compute; discriminate.
Qed.
Lemma ex_nested level : (level <= 2)%nat -> nested 9 d16 std32 4 5 level.
Proof.
  intros Hl. unfold nested. split; [exact d16_built|]. split; [exact std32_built|]. split; [reflexivity|]. split; [reflexivity|]. split; [lia|].
  split; [cbn; lia|]. split; [cbn; lia|]. intros i Hi. destruct i as [|[|[|i]]]; [reflexivity..|lia].
Qed.
Lemma ex_nestedP level : (level <= 1)%nat -> nested 9 d16P d32P 4 5 level.
Proof.
  intros Hl. unfold nested. split; [exact d16P_built|]. split; [exact d32P_built|]. split; [reflexivity|]. split; [reflexivity|]. split; [lia|].
  split; [cbn; lia|]. split; [cbn; lia|]. intros i Hi. destruct i as [|[|i]]; [reflexivity..|lia].
Qed.
Lemma ex_pair16 : ring_pair d16 d16P.
Proof.
  split; [exact d16_built|]. split; [exact d16P_built|]. split; [reflexivity|]. intros q H1 H2. cbn in H1, H2.
  repeat (destruct H1 as [<-|H1]; [repeat (destruct H2 as [H2|H2]; [discriminate|]); contradiction|]). contradiction.
Qed.
Lemma ex_pair32 : ring_pair std32 d32P.
Proof.
  split; [exact std32_built|]. split; [exact d32P_built|]. split; [reflexivity|]. intros q H1 H2. cbn in H1, H2.
  repeat (destruct H1 as [<-|H1]; [repeat (destruct H2 as [H2|H2]; [discriminate|]); contradiction|]). contradiction.
Qed.
Lemma ex_pairedQ : paired 9 ci16 std32.
Proof.
  exists 1000%nat, 1000%nat, 16, [193; 257; 449]. split; [vm_compute; reflexivity|]. split; [vm_compute; reflexivity|].
  split; [vm_compute; discriminate|]. intros q Hq. cbn in Hq. destruct Hq as [<- | [<- | [<- | []]]]; vm_compute; discriminate.
Qed.
Lemma ex_pairedP : paired 9 ci16P d32P.
Proof.
  exists 1000%nat, 1000%nat, 16, [577; 641]. split; [vm_compute; reflexivity|]. split; [vm_compute; reflexivity|].
  split; [vm_compute; discriminate|]. intros q Hq. cbn in Hq. destruct Hq as [<- | [<- | []]]; vm_compute; discriminate.
Qed.

(** Two polynomials for the parts of a ciphertext. *)
Definition dX (j : nat) : poly := fun k => 17 * Z.of_nat k * Z.of_nat k + 5 * Z.of_nat j - 40.
Definition zeros (level n : nat) : rows := repeat (repeat 0 n) (S level).
Definition d_ct (r : Ring) (level : nat) (isNTT : bool) : list rows :=
  map (fun j => if isNTT then NTTLvl r level (res_rows r level (dX j)) [] else res_rows r level (dX j)) [0; 1]%nat.

Lemma zeros_sized level n : sized level n (zeros level n).
Proof.
  unfold sized, zeros. split; [apply repeat_length|]. intros i Hi. rewrite nth_repeat_lt' by lia. apply repeat_length.
Qed.
Lemma d_ct_dom r L level b : built_ring 9 r -> rN r = (2 ^ L)%nat -> (level < length (rmods r))%nat -> ct_dom r L level b (d_ct r level b) dX.
Proof.
  intros Hr EL Hl. assert (R : forall j, rns_repr r level canon (res_rows r level (dX j)) (dX j)) by (intros j; apply (res_rows_repr 9); [lia|exact Hr|exact Hl]).
  assert (R1 : forall j, rns_repr r level (fun q => q + 1) (res_rows r level (dX j)) (dX j)) by (intros j; apply (rns_weaken r level canon); [intros; unfold canon; lia|apply R]).
  split; [cbn; lia|]. intros j Hj. destruct j as [|[|j]]; [| |cbn in Hj; lia]; cbn [d_ct map nth]; destruct b.
  - split; [unfold NTTLvl; rewrite lvl_length; cbn; lia|apply (one_ntt r Hr L EL), R1].
  - split; [unfold res_rows; rewrite map_length, seq_length; reflexivity|apply R].
  - split; [unfold NTTLvl; rewrite lvl_length; cbn; lia|apply (one_ntt r Hr L EL), R1].
  - split; [unfold res_rows; rewrite map_length, seq_length; reflexivity|apply R].
Qed.

(** A ternary secret. *)
Definition d_s : poly := fun k => Z.of_nat (k mod 3) - 1.
Definition d_s' : poly := fun k => 1 - Z.of_nat ((k + 2) mod 3).
Lemma d_s_small k : Z.abs (d_s k) <= 1.
Proof. unfold d_s. pose proof (Nat.mod_upper_bound k 3 ltac:(lia)). lia. Qed.
Lemma d_s'_small k : Z.abs (d_s' k) <= 1.
Proof. unfold d_s'. pose proof (Nat.mod_upper_bound (k + 2) 3 ltac:(lia)). lia. Qed.
Definition d_err (i : nat) : rows := res_rows std32 2 (fun k => d_s (k + i)%nat).
Definition d_aQ (i : nat) : rows := res_rows std32 2 (fun k => 31 * Z.of_nat (k + i)%nat).
Definition d_aP (i : nat) : rows := res_rows d32P 1 (fun k => 37 * Z.of_nat (k * k + i)%nat).
Lemma d_sampled r rP n level levelP X : built_ring 9 r -> built_ring 9 rP -> rN r = n -> (level < length (rmods r))%nat -> (levelP < length (rmods rP))%nat ->
  (forall k, Z.abs (X k) <= 1) -> sampled r rP level levelP (res_rows r level X) X.
Proof.
  intros Hr HrP En Hl HlP HX. split.
  - apply (rns_weaken r level canon); [intros i Hi; unfold canon; lia|]. apply (res_rows_repr 9); [lia|exact Hr|exact Hl].
  - intros k Hk. specialize (HX k). destruct (one_mod r Hr 0 ltac:(lia)). split; [lia|]. intros i Hi. destruct (one_mod rP HrP i ltac:(lia)). lia.
Qed.
Lemma d_random : randomness_ok std32 d32P 2 1 d_err (fun i k => d_s (k + i)%nat) d_aQ d_aP.
Proof.
  intros i _. split; [apply (d_sampled std32 d32P 32); [exact std32_built|exact d32P_built|reflexivity|cbn; lia|cbn; lia|intros k; apply d_s_small]|].
  split; apply ex_words; first [exact std32_built|exact d32P_built|cbn; lia].
Qed.
Definition d_sk16 : rows * rows := genSecretKey d16 d16P (res_rows d16 2 d_s').
Definition d_sk32 : rows * rows := genSecretKey std32 d32P (res_rows std32 2 d_s).
Lemma d_sk16_ok : qp_ntt d16 d16P 4 2 1 canon d_sk16 (pscale W d_s').
Proof. apply (secret_key d16 d16P 4 ex_pair16 eq_refl). apply (d_sampled d16 d16P 16); [exact d16_built|exact d16P_built|reflexivity|cbn; lia|cbn; lia|apply d_s'_small]. Qed.
Lemma d_sk32_ok : qp_ntt std32 d32P 5 2 1 canon d_sk32 (pscale W d_s).
Proof. apply (secret_key std32 d32P 5 ex_pair32 eq_refl). apply (d_sampled std32 d32P 32); [exact std32_built|exact d32P_built|reflexivity|cbn; lia|cbn; lia|apply d_s_small]. Qed.
Lemma d_sk32_sized : sized 2 32 (fst d_sk32) /\ sized 1 32 (snd d_sk32).
Proof.
  destruct d_sk32_ok as [(_ & _ & A) (_ & _ & B)]. split; (split; [reflexivity|intros i Hi; first [apply A|apply B]; exact Hi]).
Qed.
(** The secret of degree 16 with its first row only. *)
Definition d_sk16_0 : rows := firstn 1 (fst d_sk16).
Lemma d_sk16_0_ok : rns_ntt d16 4 0 canon d_sk16_0 (pscale W d_s').
Proof.
  destruct d_sk16_ok as [(_ & H & A) _]. split; [cbn; lia|]. split; [cbn; lia|]. intros i Hi. replace i with O by lia.
  unfold d_sk16_0. destruct (fst d_sk16) as [|x l]; [cbn in H; lia|]. exact (A O ltac:(lia)).
Qed.
Definition d_pCI : rows := res_rows ci16 2 d_s'.
Definition d_pCIP : rows := res_rows ci16P 1 d_s'.
Lemma ci_rows r level n X : rN r = n -> (level < length (rmods r))%nat -> (forall i, (i <= level)%nat -> 0 < mq (rmod r i)) -> rns_repr r level (fun q => q + 1) (res_rows r level X) X.
Proof.
  intros En Hl Hq. unfold res_rows. split; [exact Hl|]. split; [rewrite map_length, seq_length; lia|]. intros i Hi.
  rewrite (AutoProps.nth_map_any _ _ _ O) by (rewrite seq_length; lia). rewrite seq_nth by lia. cbn [Nat.add].
  split; [rewrite map_length, seq_length; reflexivity|]. intros k Hk. rewrite (AutoProps.nth_map_any _ _ _ O) by (rewrite seq_length; lia).
  rewrite seq_nth by lia. cbn [Nat.add]. pose proof (Z.mod_pos_bound (X k) _ (Hq i Hi)). split; [lia|]. apply eqm_mod.
Qed.
