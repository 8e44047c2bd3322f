(** Properties C43-C45 and C51: the coefficient-wise operations. *)
From Verif Require Import Word PolySpec Ring RingOps RNSSpec OpsProps Examples.

(** C44, for a ring the library built whose moduli have at most 62 bits. *)
Theorem C44_linear_ops : forall r level, built_ring 4 r -> (level < length (rmods r))%nat -> forall a b z, words r level canon a -> words r level canon b ->
  forall i k, (i <= level)%nat -> (k < rN r)%nat ->
  let q := mq (rmod r i) in
  coeff (AddLvl r level a b z) i k = (coeff a i k + coeff b i k) mod q /\
  coeff (SubLvl r level a b z) i k = (coeff a i k - coeff b i k) mod q /\
  coeff (AddNoModLvl r level a b z) i k = coeff a i k + coeff b i k /\
  coeff (SubNoModLvl r level a b z) i k = coeff a i k + q - coeff b i k /\
  coeff (NegLvl r level a z) i k = q - coeff a i k /\
  (coeff (NegLvl r level a z) i k) mod q = (- coeff a i k) mod q.
Proof. exact linear_ops. Qed.
Print Assumptions C44_linear_ops.

Theorem C44_reduction_ops : forall r level, built_ring 4 r -> (level < length (rmods r))%nat -> forall a z, words r level (fun _ => W) a ->
  forall i k, (i <= level)%nat -> (k < rN r)%nat ->
  let q := mq (rmod r i) in
  coeff (ReduceLvl r level a z) i k = coeff a i k mod q /\
  0 <= coeff (ReduceConstantLvl r level a z) i k < 2 * q /\
  coeff (ReduceConstantLvl r level a z) i k mod q = coeff a i k mod q /\
  coeff (MFormLvl r level a z) i k = (coeff a i k * W) mod q /\
  0 <= coeff (MFormConstantLvl r level a z) i k < 2 * q /\
  coeff (MFormConstantLvl r level a z) i k mod q = (coeff a i k * W) mod q /\
  0 <= coeff (InvMFormLvl r level a z) i k < q /\
  (coeff (InvMFormLvl r level a z) i k * W) mod q = coeff a i k mod q.
Proof. exact reduction_ops. Qed.
Print Assumptions C44_reduction_ops.

Theorem C44_mod_op : forall r level, built_ring 4 r -> (level < length (rmods r))%nat -> forall a z n, words r level (fun _ => W) a -> 2 <= n -> 2 * n <= W ->
  forall i k, (i <= level)%nat -> (k < rN r)%nat ->
  coeff (ModLvl r n level a z) i k = coeff a i k mod n.
Proof. exact mod_op. Qed.
Print Assumptions C44_mod_op.

Theorem C44_barrett_products : forall r level, built_ring 4 r -> (level < length (rmods r))%nat -> forall a b z, words r level (fun _ => W) a -> words r level (fun _ => W) b -> words r level canon z ->
  forall i k, (i <= level)%nat -> (k < rN r)%nat ->
  let q := mq (rmod r i) in
  coeff (MulCoeffsLvl r level a b z) i k = (coeff a i k * coeff b i k) mod q /\
  coeff (MulCoeffsAndAddLvl r level a b z) i k = (coeff z i k + coeff a i k * coeff b i k) mod q /\
  coeff (MulCoeffsAndAddNoModLvl r level a b z) i k = coeff z i k + (coeff a i k * coeff b i k) mod q /\
  0 <= coeff (MulCoeffsConstantLvl r level a b z) i k < 2 * q /\
  coeff (MulCoeffsConstantLvl r level a b z) i k mod q = (coeff a i k * coeff b i k) mod q.
Proof. exact barrett_ops. Qed.
Print Assumptions C44_barrett_products.

Theorem C44_montgomery_products : forall r level, built_ring 4 r -> (level < length (rmods r))%nat -> forall a b z, words r level (fun _ => W) a -> words r level canon b -> words r level canon z ->
  forall i k, (i <= level)%nat -> (k < rN r)%nat ->
  let q := mq (rmod r i) in let x := coeff a i k in let y := coeff b i k in let w := coeff z i k in
  (0 <= coeff (MulCoeffsMontgomeryLvl r level a b z) i k < q /\
   eqm q (coeff (MulCoeffsMontgomeryLvl r level a b z) i k * W) (x * y)) /\
  (0 <= coeff (MulCoeffsMontgomeryAndAddLvl r level a b z) i k < q /\
   eqm q (coeff (MulCoeffsMontgomeryAndAddLvl r level a b z) i k * W) (w * W + x * y)) /\
  (0 <= coeff (MulCoeffsMontgomeryAndSubLvl r level a b z) i k < q /\
   eqm q (coeff (MulCoeffsMontgomeryAndSubLvl r level a b z) i k * W) (w * W - x * y)) /\
  (w <= coeff (MulCoeffsMontgomeryAndAddNoModLvl r level a b z) i k < w + q /\
   eqm q (coeff (MulCoeffsMontgomeryAndAddNoModLvl r level a b z) i k * W) (w * W + x * y)) /\
  (w < coeff (MulCoeffsMontgomeryAndSubNoModLvl r level a b z) i k <= w + q /\
   eqm q (coeff (MulCoeffsMontgomeryAndSubNoModLvl r level a b z) i k * W) (w * W - x * y)) /\
  (0 <= coeff (MulCoeffsMontgomeryConstantLvl r level a b z) i k < 2 * q /\
   eqm q (coeff (MulCoeffsMontgomeryConstantLvl r level a b z) i k * W) (x * y)) /\
  (0 <= coeff (MulCoeffsMontgomeryConstantAndNegLvl r level a b z) i k < 2 * q /\
   eqm q (coeff (MulCoeffsMontgomeryConstantAndNegLvl r level a b z) i k * W) (- (x * y))) /\
  (w <= coeff (MulCoeffsMontgomeryConstantAndAddNoModLvl r level a b z) i k < w + 2 * q /\
   eqm q (coeff (MulCoeffsMontgomeryConstantAndAddNoModLvl r level a b z) i k * W) (w * W + x * y)) /\
  (w <= coeff (MulCoeffsMontgomeryConstantAndSubNoModLvl r level a b z) i k < w + 2 * q /\
   eqm q (coeff (MulCoeffsMontgomeryConstantAndSubNoModLvl r level a b z) i k * W) (w * W - x * y)).
Proof. exact montgomery_ops. Qed.
Print Assumptions C44_montgomery_products.

Theorem C44_scalar_products : forall r level, built_ring 4 r -> (level < length (rmods r))%nat -> forall a z s, words r level (fun _ => W) a ->
  forall i k, (i <= level)%nat -> (k < rN r)%nat ->
  let q := mq (rmod r i) in
  (0 <= s < W -> coeff (MulScalarLvl r s level a z) i k = (coeff a i k * s) mod q) /\
  coeff (MulScalarBigintLvl r s level a z) i k = (coeff a i k * s) mod q.
Proof. exact scalar_mul_ops. Qed.
Print Assumptions C44_scalar_products.

(** No operation "up to a level" touches the rows above it. *)
Theorem C44_rows_above_level_kept : forall r level a b z (f : rows),
  In f [AddLvl r level a b z; SubLvl r level a b z; AddNoModLvl r level a b z; SubNoModLvl r level a b z;
        NegLvl r level a z; ReduceLvl r level a z; ReduceConstantLvl r level a z;
        MulCoeffsLvl r level a b z; MulCoeffsAndAddLvl r level a b z;
        MulCoeffsAndAddNoModLvl r level a b z; MulCoeffsConstantLvl r level a b z;
        MulCoeffsMontgomeryLvl r level a b z; MulCoeffsMontgomeryConstantLvl r level a b z;
        MulCoeffsMontgomeryConstantAndNegLvl r level a b z; MulCoeffsMontgomeryAndAddLvl r level a b z;
        MulCoeffsMontgomeryAndAddNoModLvl r level a b z; MulCoeffsMontgomeryConstantAndAddNoModLvl r level a b z;
        MulCoeffsMontgomeryAndSubLvl r level a b z; MulCoeffsMontgomeryAndSubNoModLvl r level a b z;
        MulCoeffsMontgomeryConstantAndSubNoModLvl r level a b z; MFormLvl r level a z;
        MFormConstantLvl r level a z; InvMFormLvl r level a z;
        NTTLvl r level a z; NTTLazyLvl r level a z; InvNTTLvl r level a z; InvNTTLazyLvl r level a z] ->
  kept level z f.
Proof. exact frame_ops. Qed.
Print Assumptions C44_rows_above_level_kept.

(** The negation of a reduced polynomial is not reduced: 0 is sent to q. *)
Theorem C44_negation_canonical_refuted :
  exists r p, built_ring 4 r /\ words r 0 canon p /\ ~ words r 0 canon (NegLvl r 0 p []).
Proof.
  exists ring16, poly_a. split; [exact ring16_built4|]. split; [apply wordsb_ok; vm_compute; reflexivity|].
  intros [_ H]. destruct (H 0%nat ltac:(lia)) as [_ H']. specialize (H' 0%nat ltac:(vm_compute; lia)).
  destruct H' as [_ H']. revert H'. vm_compute. discriminate.
Qed.
Print Assumptions C44_negation_canonical_refuted.

Example C44_case : built_ring 4 ring16 /\ words ring16 2 (fun _ => W) poly_a /\ words ring16 2 canon poly_a /\
  words ring16 2 (fun _ => W) poly_b /\ words ring16 2 canon poly_b /\
  coeff (MulCoeffsAndAddLvl ring16 2 poly_a poly_b poly_a) 0 1 = 0 /\
  coeff (SubLvl ring16 2 poly_a poly_b []) 0 0 = 1.
Proof.
  split; [exact ring16_built4|]. do 4 (split; [apply wordsb_ok; vm_compute; reflexivity|]).
  vm_compute. split; reflexivity.
Qed.

(** C43: the code of the four scalar additions computes the right sum, but into the source; the
    destination keeps its old content. *)
Theorem C43_scalar_bigint_writes_source : forall r level a z s, built_ring 4 r -> (level < length (rmods r))%nat -> words r level canon a ->
  let '(a1, z1) := AddScalarBigintLvl r level a s z in
  let '(a2, z2) := SubScalarBigintLvl r level a s z in
  z1 = z /\ z2 = z /\
  forall i k, (i <= level)%nat -> (k < rN r)%nat ->
    coeff a1 i k = (coeff a i k + s) mod mq (rmod r i) /\
    coeff a2 i k = (coeff a i k - s) mod mq (rmod r i).
Proof. exact scalar_add_ops. Qed.
Print Assumptions C43_scalar_bigint_writes_source.

Theorem C43_scalar_word_writes_source : forall r level a z s, built_ring 4 r -> (level < length (rmods r))%nat -> words r level canon a ->
  (forall i, (i <= level)%nat -> 0 <= s < mq (rmod r i)) ->
  let '(a1, z1) := AddScalarLvl r level a s z in
  let '(a2, z2) := SubScalarLvl r level a s z in
  z1 = z /\ z2 = z /\
  forall i k, (i <= level)%nat -> (k < rN r)%nat ->
    coeff a1 i k = (coeff a i k + s) mod mq (rmod r i) /\
    coeff a2 i k = (coeff a i k - s) mod mq (rmod r i).
Proof. exact scalar_add_ops_word. Qed.
Print Assumptions C43_scalar_word_writes_source.

(** So the claim that the destination receives the sum and the source is left alone is false. *)
Theorem C43_destination_written_refuted :
  exists r a s z, built_ring 4 r /\ words r 0 canon a /\ words r 0 canon z /\ 0 <= s < mq (rmod r 0) /\
    let '(a', z') := AddScalarLvl r 0 a s z in
    coeff a' 0 0 <> coeff a 0 0 /\ coeff z' 0 0 <> (coeff a 0 0 + s) mod mq (rmod r 0).
Proof.
  exists ring16, poly_a, 5, poly_b. split; [exact ring16_built4|].
  do 2 (split; [apply wordsb_ok; vm_compute; reflexivity|]).
  split; [vm_compute; split; [discriminate|reflexivity]|]. vm_compute. split; discriminate.
Qed.
Print Assumptions C43_destination_written_refuted.

Example C43_case : built_ring 4 ring16 /\ words ring16 2 canon poly_a /\
  (forall i, (i <= 2)%nat -> 0 <= 50 < mq (rmod ring16 i)).
Proof.
  split; [exact ring16_built4|]. split; [apply wordsb_ok; vm_compute; reflexivity|].
  intros i Hi. destruct i as [|[|[|i]]]; [vm_compute; split; [discriminate|reflexivity]..|lia].
Qed.

(** C45: multiplying by X^d, for every d >= 0.  The words may equal q (an unreduced zero). *)
Theorem C45_monomial_product : forall r a z d, built_ring 4 r -> words r (length (rmods r) - 1) canon a -> 0 <= d ->
  exists b, MultByMonomial r a d z = Some b /\
  forall i k, (i < length (rmods r))%nat -> (k < rN r)%nat ->
    0 <= coeff b i k <= mq (rmod r i) /\
    eqm (mq (rmod r i)) (coeff b i k) (pmul (rN r) (pmono (rN r) (Z.to_nat d)) (co (nth i a [])) k).
Proof. exact monomial_lemma. Qed.
Print Assumptions C45_monomial_product.

(** Negative exponents that are not multiples of 2N have no result (the code panics). *)
Theorem C45_negative_exponent_unsupported : forall r a z d, (0 < rN r)%nat -> d < 0 ->
  d mod (2 * Z.of_nat (rN r)) <> 0 -> MultByMonomial r a d z = None.
Proof. exact monomial_negative. Qed.
Print Assumptions C45_negative_exponent_unsupported.

Example C45_case : built_ring 4 ring16 /\ words ring16 2 canon poly_a /\
  option_map (fun b => map (coeff b 0) [0;1;2;3]%nat) (MultByMonomial ring16 poly_a 33 []) = Some [89; 0; 96; 5] /\
  MultByMonomial ring16 poly_a (-3) [] = None.
Proof.
  split; [exact ring16_built4|]. split; [apply wordsb_ok; vm_compute; reflexivity|].
  vm_compute. split; reflexivity.
Qed.

(** C51: multiplying by 2^n in place is correct; with a separate destination the result lacks the
    Montgomery factor 2^64. *)
Theorem C51_mul_by_pow2 : forall r level a z n, built_ring 4 r -> (level < length (rmods r))%nat -> words r level canon a ->
  0 <= n <= 64 ->
  forall i k, (i <= level)%nat -> (k < rN r)%nat ->
    coeff (MulByPow2Lvl_inplace r n level a) i k = (coeff a i k * 2 ^ n) mod mq (rmod r i) /\
    0 <= coeff (MulByPow2Lvl r n level a z) i k < mq (rmod r i) /\
    eqm (mq (rmod r i)) (coeff (MulByPow2Lvl r n level a z) i k * W) (coeff a i k * 2 ^ n).
Proof. exact pow2_ops. Qed.
Print Assumptions C51_mul_by_pow2.

Theorem C51_separate_destination_refuted :
  exists r a n z, built_ring 4 r /\ words r 0 canon a /\ 0 <= n <= 64 /\
    coeff (MulByPow2Lvl r n 0 a z) 0 1 <> (coeff a 0 1 * 2 ^ n) mod mq (rmod r 0).
Proof.
  exists ring16, poly_a, 3, []. split; [exact ring16_built4|]. split; [apply wordsb_ok; vm_compute; reflexivity|].
  split; [lia|]. vm_compute. discriminate.
Qed.
Print Assumptions C51_separate_destination_refuted.
