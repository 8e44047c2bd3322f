(** Concrete keys and messages for the examples of rlwe. *)
From Verif Require Import Word Arith PolySpec PolyProofs Ring RingProofs NTT RingOps RNSSpec RowProofs OpsProofs OpsProps BasisExt BasisProps Gadget Frlwe FrlweSetup GadgetSpec Repr FrlweProps BasisEx FrlweEx RlweSpec Rlwe RlweKeys.

Definition eQ : Ring := Eval vm_compute in fpQ par16.
Definition eP : Ring := Eval vm_compute in fpP par16.

Lemma pair16 : ring_pair eQ eP.
Proof.
  pose proof (NewFParams_ok _ _ _ _ _ _ _ sizes16 par16_built) as Hp. split; [exact (fk_Q _ _ _ _ _ _ Hp)|]. split; [exact (fk_P _ _ _ _ _ _ Hp)|].
  split; [reflexivity|]. intros q H1 H2. cbn in H1, H2. repeat (destruct H1 as [<-|H1]; [repeat (destruct H2 as [H2|H2]; [discriminate|]); contradiction|]). contradiction.
Qed.

Lemma ex_sampled level levelP X : (level <= 2)%nat -> (levelP <= 1)%nat -> (forall k, (k < 16)%nat -> Z.abs (X k) <= 1) -> sampled eQ eP level levelP (res_rows eQ level X) X.
Proof.
  intros Hl HlP HX. split.
  - apply (rns_weaken eQ level canon); [intros i Hi; unfold canon; lia|]. apply (res_rows_repr 2); [lia|apply (one_2 eQ), pair16|cbn; lia].
  - intros k Hk. change (rN eQ) with 16%nat in Hk. specialize (HX k Hk). split; [change (mq (rmod eQ 0)) with 97; lia|].
    intros i Hi. destruct i as [|[|i]]; [change (mq (rmod eP 0)) with 353; lia|change (mq (rmod eP 1)) with 449; lia|lia].
Qed.

Lemma ex_words r level X : built_ring 9 r -> (level < length (rmods r))%nat -> words r level canon (res_rows r level X).
Proof.
  intros Br Hl. destruct (res_rows_repr 2 r level X ltac:(lia) (one_2 r Br) Hl) as (_ & H1 & H2). split; [exact H1|].
  intros i Hi. destruct (H2 i Hi) as [H3 H4]. split; [exact H3|]. intros k Hk. apply (H4 k Hk).
Qed.

Lemma ex_s_small k : (k < 16)%nat -> Z.abs (ex_s k) <= 1.
Proof. intros Hk. do 16 (destruct k as [|k]; [unfold Z.le; vm_compute; discriminate|]). lia. Qed.
Lemma ex_s'_small k : (k < 16)%nat -> Z.abs (ex_s' k) <= 1.
Proof. intros Hk. do 16 (destruct k as [|k]; [unfold Z.le; vm_compute; discriminate|]). lia. Qed.
Lemma ex_e_small i k : (k < 16)%nat -> Z.abs (ex_e i k) <= 1.
Proof. intros Hk. unfold ex_e. destruct (Nat.even _); cbn; lia. Qed.

(** Secret keys, errors and uniform polynomials. *)
Definition ex_sk : rows := res_rows eQ 2 ex_s.
Definition ex_sk' : rows := res_rows eQ 2 ex_s'.
Definition ex_err (i : nat) : rows := res_rows eQ 2 (ex_e i).
Definition ex_aQ (i : nat) : rows := res_rows eQ 2 (ex_b1 i).
Definition ex_aP (i : nat) : rows := res_rows eP 1 (ex_b1 (i + 7)).

Lemma ex_random : randomness_ok eQ eP 2 1 ex_err ex_e ex_aQ ex_aP.
Proof.
  intros i _. split; [apply ex_sampled; [lia|lia|apply ex_e_small]|]. split; apply ex_words; first [apply pair16|cbn; lia].
Qed.

(** A message, and its rows. *)
Definition ex_M : poly := fun k => 30 * Z.of_nat k - 200.
