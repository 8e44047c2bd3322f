(** Concrete parameters, a switching key and a polynomial for the examples of frlwe. *)
From Verif Require Import Word Arith PolySpec PolyProofs Ring RingProofs NTT RingOps RNSSpec RowProofs OpsProofs OpsProps Float64 BasisExt BasisProps Gadget Frlwe FrlweSetup GadgetSpec Repr FrlweProps GadgetProofs FrlweSwitch BasisEx Examples.

Definition exQ : list Z := [97; 193; 257].
Definition exP : list Z := [353; 449].
Definition exT : list Z := [1153; 1217; 1249; 1409].
Definition exGamma : nat := 2.

Definition par16 : FParams := Eval vm_compute in
  match NewFParams 1000 16 exQ exP exT exGamma with Some p => p | None => mkFP ring0 ring0 ring0 ring0 0 end.
Lemma par16_built : NewFParams 1000 16 exQ exP exT exGamma = Some par16.
Proof. vm_compute. reflexivity. Qed.

Lemma sizes16 : sizes_ok 16 exQ exP exT exGamma.
Proof.
  split; [unfold Z.le; vm_compute; discriminate|]. split; [|unfold exGamma, exP, exT; cbn [length]; lia].
  intros q Hq. cbn in Hq. repeat (destruct Hq as [<-|Hq]; [unfold Z.le; vm_compute; discriminate|]). contradiction.
Qed.

(** Montgomery form and NTT of an integer polynomial, computed by the model. *)
Definition key_rows (r : Ring) (b : poly) : rows :=
  let level := (length (rmods r) - 1)%nat in
  let x := NTTLvl r level (res_rows r level b) [] in MFormLvl r level x [].

Lemma key_rows_ok r L b : built_ring 9 r -> rN r = (2 ^ L)%nat -> (0 < length (rmods r))%nat ->
  rns_ntt r L (length (rmods r) - 1) canon (key_rows r b) (pscale W b).
Proof.
  intros Hr EL Hne. assert (B2 : built_ring 2 r) by (apply (built_le 9); [lia|exact Hr]).
  assert (M : forall i, (i <= length (rmods r) - 1)%nat -> 5 <= mq (rmod r i) /\ 9 * mq (rmod r i) <= W).
  { intros i Hi. destruct (built_mod 9 r i ltac:(lia) Hr) as (Q5 & Q9 & _); [|split; assumption]. lia. }
  unfold key_rows. apply (n_mform r L B2 EL _ canon).
  { intros i Hi. destruct (M i Hi). unfold canon. lia. }
  apply (t_ntt r L B2 EL _ canon).
  { intros i Hi. destruct (M i Hi). unfold canon. lia. }
  apply (res_rows_repr 2); [lia|exact B2|lia].
Qed.

(** A switching key from s' = 1 + X^3 to s = X - X^5, with errors +-1: b1_i is arbitrary,
    b0_i = e_i - b1_i*s + g_i*P*s', where the integer g_i is 1 on block i and 0 on the other block. *)
Definition ex_s : poly := fun k => nth k [0; 1; 0; 0; 0; -1] 0.
Definition ex_s' : poly := fun k => nth k [1; 0; 0; 1] 0.
Definition ex_e (i : nat) : poly := fun k => if Nat.even (k + i) then 1 else -1.
Definition ex_b1 (i : nat) : poly := fun k => 1000 * Z.of_nat k + 31 * Z.of_nat i.
Definition ex_g (i : nat) : Z := nth i [842446; 3968852] 0.
Definition ex_b0 (i : nat) : poly := psub (padd (ex_e i) (pscale (ex_g i * (353 * 449)) ex_s')) (pmul 16 (ex_b1 i) ex_s).

Definition ex_key0 : list (rows * rows) := map (fun i => (key_rows (fpQ par16) (ex_b0 i), key_rows (fpP par16) (ex_b0 i))) (seq 0 2).
Definition ex_key1 : list (rows * rows) := map (fun i => (key_rows (fpQ par16) (ex_b1 i), key_rows (fpP par16) (ex_b1 i))) (seq 0 2).

Lemma ex_key_poly b : key_poly exQ exP par16 4 (key_rows (fpQ par16) b, key_rows (fpP par16) b) b.
Proof.
  pose proof (NewFParams_ok _ _ _ _ _ _ _ sizes16 par16_built) as Hp. split; cbn [fst snd].
  - apply (key_rows_ok (fpQ par16) 4 b (fk_Q _ _ _ _ _ _ Hp)); [reflexivity|cbn; lia].
  - apply (key_rows_ok (fpP par16) 4 b (fk_P _ _ _ _ _ _ Hp)); [reflexivity|cbn; lia].
Qed.

Lemma ex_gadget : gadget_key 16 2 2 exQ exP ex_b0 ex_b1 ex_e ex_s ex_s'.
Proof.
  assert (G : forall i q c, eqm q (ex_g i * (353 * 449)) c ->
    forall k, eqm q (padd (ex_b0 i) (pmul 16 (ex_b1 i) ex_s) k) (padd (ex_e i) (pscale c ex_s') k)).
  { intros i q c H k. apply (eqm_trans q _ (padd (ex_e i) (pscale (ex_g i * (353 * 449)) ex_s') k)).
    - apply eqm_eq. unfold ex_b0. generalize (pmul 16 (ex_b1 i) ex_s) (pscale (ex_g i * (353 * 449)) ex_s') (ex_e i). intros x y z. unfold padd, psub. ring.
    - unfold padd, pscale. apply eqm_add; [reflexivity|]. apply eqm_mul; [exact H|reflexivity]. }
  assert (Z0 : forall i k, padd (ex_e i) (pscale 0 ex_s') k = padd (ex_e i) pzero k) by (intros i k; unfold padd, pscale, pzero; ring).
  assert (Z1 : forall i k, padd (ex_e i) (pscale 0 ex_s') k = ex_e i k) by (intros i k; unfold padd, pscale; ring).
  intros i Hi. split.
  - intros q Hq k Hk. rewrite <- (Z1 i k). apply G. destruct i as [|[|i]]; [| |lia]; cbn in Hq; destruct Hq as [<-|[<-|[]]]; vm_compute; reflexivity.
  - intros j Hj k Hk. assert (J : eqm (nth j exQ 0) (ex_g i * (353 * 449)) (if Nat.eqb (j / 2) i then product exP else 0)).
    { destruct i as [|[|i]]; [| |lia]; (do 3 (destruct j as [|j]; [vm_compute; reflexivity|])); cbn in Hj; lia. }
    destruct (Nat.eqb (j / 2) i); [apply G; exact J|rewrite <- (Z0 i k); apply G; exact J].
Qed.

Definition ex_A : poly := fun k => 123457 * Z.of_nat k + 4.

Lemma ex_A_repr : rns_repr (fpQ par16) 2 canon (res_rows (fpQ par16) 2 ex_A) ex_A.
Proof.
  pose proof (NewFParams_ok _ _ _ _ _ _ _ sizes16 par16_built) as Hp.
  apply (res_rows_repr 2); [lia|apply (built_le 9); [lia|apply (fk_Q _ _ _ _ _ _ Hp)]|cbn; lia].
Qed.
