(** C41, C42, C48, C54-C60: the evaluator of ckks.  [decrypts rQ L sk c M] says that rlwe's Decrypt of the ciphertext c
    gives M (CkksSpec.v); [ct_ok rQ level B c] that c is a ciphertext of that level with words below B(q). *)
From Coq Require Import Reals.
From Flocq Require IEEE754.BinarySingleNaN.
From Verif Require Import Word Arith PolySpec Ring NTT RingOps RNSSpec Automorphism GadgetSpec RlweSpec Rlwe Float64 ScalingSpec FrlweEx Ckks CkksSpec CkksOps CkksAdd CkksMul CkksRelin CkksRot CkksRescale CkksMad CkksTop CkksEx CkksRefute.
Open Scope Z_scope.

(** ** C41: MulAndAdd adds c0_0 c1_1 twice instead of the two cross terms. *)
Theorem C41_mul_and_add_cross_term : forall rQ, built_ring 9 rQ -> forall L, rN rQ = (2 ^ L)%nat ->
  forall level0 level1 level B0 B1 c0 c1 out scratch sk s M0 M1 Mo,
  secret rQ L sk s -> ct_ok rQ level0 B0 c0 -> ct_ok rQ level1 B1 c1 -> ct_ok rQ level canon out -> fits rQ B0 -> fits rQ B1 ->
  decrypts rQ L sk c0 M0 -> decrypts rQ L sk c1 M1 -> decrypts rQ L sk out Mo ->
  ctDegree c0 = 1%nat -> ctDegree c1 = 1%nat -> ctDegree out = 2%nat -> (level <= level0)%nat -> (level <= level1)%nat ->
  f64_lt (ctScale out) (f64_mul (ctScale c0) (ctScale c1)) = false ->
  exists c, MulAndAdd rQ c0 c1 out scratch = Some c /\ ct_ok rQ level canon c /\ ctDegree c = 2%nat /\ ctScale c = ctScale out /\
    forall a0 a1 b0 b1, rns_ntt rQ L level B0 (comp c0 0) a0 -> rns_ntt rQ L level B0 (comp c0 1) a1 ->
      rns_ntt rQ L level B1 (comp c1 0) b0 -> rns_ntt rQ L level B1 (comp c1 1) b1 ->
      decrypts rQ L sk c (padd Mo (padd (pmul (rN rQ) M0 M1) (pmul (rN rQ) (psub (pmul (rN rQ) a0 b1) (pmul (rN rQ) a1 b0)) s))).
Proof. exact mul_and_add. Qed.
Print Assumptions C41_mul_and_add_cross_term.

Theorem C41_mul_and_add_square : forall rQ, built_ring 9 rQ -> forall L, rN rQ = (2 ^ L)%nat ->
  forall level0 level B0 c0 out scratch sk s M0 Mo,
  secret rQ L sk s -> ct_ok rQ level0 B0 c0 -> ct_ok rQ level canon out -> fits rQ B0 -> decrypts rQ L sk c0 M0 -> decrypts rQ L sk out Mo ->
  ctDegree c0 = 1%nat -> ctDegree out = 2%nat -> (level <= level0)%nat -> f64_lt (ctScale out) (f64_mul (ctScale c0) (ctScale c0)) = false ->
  exists c, MulAndAdd rQ c0 c0 out scratch = Some c /\ ct_ok rQ level canon c /\ ctDegree c = 2%nat /\ ctScale c = ctScale out /\
    decrypts rQ L sk c (padd Mo (pmul (rN rQ) M0 M0)).
Proof. exact mul_and_add_square. Qed.
Print Assumptions C41_mul_and_add_square.

Theorem C41_mul_and_add_plain : forall rQ, built_ring 9 rQ -> forall L, rN rQ = (2 ^ L)%nat ->
  forall levelp levelc level Bp Bc p c out scratch sk s Mp Mc Mo (first : bool),
  secret rQ L sk s -> ct_ok rQ levelp Bp p -> ct_ok rQ levelc Bc c -> ct_ok rQ level canon out -> fits rQ Bp -> fits rQ Bc ->
  decrypts rQ L sk p Mp -> decrypts rQ L sk c Mc -> decrypts rQ L sk out Mo ->
  ctDegree p = 0%nat -> ctDegree c = 1%nat -> ctDegree out = 1%nat -> (level <= levelp)%nat -> (level <= levelc)%nat ->
  let op0 := if first then p else c in let op1 := if first then c else p in
  f64_lt (ctScale out) (f64_mul (ctScale op0) (ctScale op1)) = false ->
  exists c', MulAndAdd rQ op0 op1 out scratch = Some c' /\ ct_ok rQ level canon c' /\ ctDegree c' = 1%nat /\ ctScale c' = ctScale out /\
    decrypts rQ L sk c' (padd Mo (pmul (rN rQ) Mp Mc)).
Proof. exact mul_and_add_plain. Qed.
Print Assumptions C41_mul_and_add_plain.

Theorem C41_mul_and_add_refuted : exists rQ L sk s c0 c1 out scratch M0 M1 Mo c,
  built_ring 9 rQ /\ rN rQ = (2 ^ L)%nat /\ secret rQ L sk s /\
  ct_ok rQ 0 canon c0 /\ ct_ok rQ 0 canon c1 /\ ct_ok rQ 0 canon out /\
  ctDegree c0 = 1%nat /\ ctDegree c1 = 1%nat /\ ctDegree out = 2%nat /\ ctScale out = f64_mul (ctScale c0) (ctScale c1) /\
  decrypts rQ L sk c0 M0 /\ decrypts rQ L sk c1 M1 /\ decrypts rQ L sk out Mo /\
  MulAndAdd rQ c0 c1 out scratch = Some c /\ ~ decrypts rQ L sk c (padd Mo (pmul (rN rQ) M0 M1)).
Proof. exact mad_wrong. Qed.
Print Assumptions C41_mul_and_add_refuted.

Example C41_square_case : exists M0 Mo c, decrypts gQ 4 (fst g_sk) x1 M0 /\ decrypts gQ 4 (fst g_sk) x3 Mo /\
  MulAndAdd gQ x1 x1 x3 g_scratch = Some c /\ decrypts gQ 4 (fst g_sk) c (padd Mo (pmul 16 M0 M0)).
Proof.
  destruct (g_decrypts 0 canon x1 x1_ok g_fits_canon) as [M0 D0]. destruct (g_decrypts 0 canon x3 x3_ok g_fits_canon) as [Mo Do].
  destruct (C41_mul_and_add_square gQ gQ_built 4 eq_refl 0 0 canon x1 x3 g_scratch (fst g_sk) ex_s M0 Mo g_secret x1_ok x3_ok g_fits_canon D0 Do eq_refl eq_refl (le_n 0)) as (c & E & _ & _ & _ & D).
  - vm_compute. reflexivity.
  - exists M0, Mo, c. split; [exact D0|]. split; [exact Do|]. split; [exact E|exact D].
Qed.

(** ** C42: sums and differences; operands of different scales are brought to the larger one by an integer factor. *)
Theorem C42_add : forall rQ, built_ring 9 rQ -> forall L, rN rQ = (2 ^ L)%nat ->
  forall level0 level1 lo d B0 B1 c0 c1 out pool sk s M0 M1,
  secret rQ L sk s -> ct_ok rQ level0 B0 c0 -> ct_ok rQ level1 B1 c1 -> fits rQ B0 -> fits rQ B1 -> fits rQ (fun q => B0 q + B1 q - q) ->
  decrypts rQ L sk c0 M0 -> decrypts rQ L sk c1 M1 -> (1 <= ctDegree c0 + ctDegree c1)%nat ->
  shaped d lo out -> (ctDegree c0 <= d)%nat -> (ctDegree c1 <= d)%nat -> (ctDegree c0 <= ctDegree pool)%nat -> (ctDegree c1 <= ctDegree pool)%nat ->
  let level := Nat.min (Nat.min level0 level1) lo in (level <= ctLevel pool)%nat ->
  let k0 := match_factor (ctScale c1) (ctScale c0) in let k1 := match_factor (ctScale c0) (ctScale c1) in
  1 <= k0 < 2 ^ 52 -> 1 <= k1 < 2 ^ 52 ->
  exists c, Add rQ c0 c1 out pool = Some c /\ ct_ok rQ level (fun q => B0 q + B1 q - q) c /\ ctDegree c = Nat.max (ctDegree c0) (ctDegree c1) /\
    ctScale c = MaxFloat64 (ctScale c0) (ctScale c1) /\ decrypts rQ L sk c (padd (pscale k0 M0) (pscale k1 M1)).
Proof. exact CkksAdd.add_correct. Qed.
Print Assumptions C42_add.

Theorem C42_sub : forall rQ, built_ring 9 rQ -> forall L, rN rQ = (2 ^ L)%nat ->
  forall level0 level1 lo d B0 B c0 c1 out pool sk s M0 M1,
  secret rQ L sk s -> ct_ok rQ level0 B0 c0 -> ct_ok rQ level1 closed c1 -> fits rQ B0 -> fits rQ B ->
  (forall i, (i < length (rmods rQ))%nat -> B0 (mq (rmod rQ i)) <= B (mq (rmod rQ i)) /\ ((ctDegree c0 < ctDegree c1)%nat -> closed (mq (rmod rQ i)) <= B (mq (rmod rQ i)))) ->
  decrypts rQ L sk c0 M0 -> decrypts rQ L sk c1 M1 -> (1 <= ctDegree c0 + ctDegree c1)%nat ->
  shaped d lo out -> (ctDegree c0 <= d)%nat -> (ctDegree c1 <= d)%nat -> (ctDegree c0 <= ctDegree pool)%nat -> (ctDegree c1 <= ctDegree pool)%nat ->
  let level := Nat.min (Nat.min level0 level1) lo in (level <= ctLevel pool)%nat ->
  let k0 := match_factor (ctScale c1) (ctScale c0) in let k1 := match_factor (ctScale c0) (ctScale c1) in
  1 <= k0 < 2 ^ 52 -> 1 <= k1 < 2 ^ 52 ->
  exists c, Sub rQ c0 c1 out pool = Some c /\ ct_ok rQ level B c /\ ctDegree c = Nat.max (ctDegree c0) (ctDegree c1) /\
    ctScale c = MaxFloat64 (ctScale c0) (ctScale c1) /\ decrypts rQ L sk c (psub (pscale k0 M0) (pscale k1 M1)).
Proof. exact CkksAdd.sub_correct. Qed.
Print Assumptions C42_sub.

(** Elements of degree 3 with scales that differ by an integer factor: the pool of the evaluator has degree 2. *)
Theorem C42_degree_three_panics : exists rQ c0 c1 out pool, built_ring 9 rQ /\ ct_ok rQ 0 canon c0 /\ ct_ok rQ 0 canon c1 /\
  ctDegree c0 = 3%nat /\ ctDegree c1 = 3%nat /\ shaped 3 0 out /\ shaped 2 1 pool /\ Add rQ c0 c1 out pool = None.
Proof. exact add_degree_three. Qed.
Print Assumptions C42_degree_three_panics.

Example C42_case : exists M0 M1 c, decrypts gQ 4 (fst g_sk) (g_ct 1 1 1024) M0 /\ decrypts gQ 4 (fst g_sk) (g_ct 2 0 3072) M1 /\
  Add gQ (g_ct 1 1 1024) (g_ct 2 0 3072) (g_new 2 1) (g_new 2 1) = Some c /\ decrypts gQ 4 (fst g_sk) c (padd (pscale 3 M0) (pscale 1 M1)).
Proof.
  assert (K0 : ct_ok gQ 1 canon (g_ct 1 1 1024)) by (apply ctb_ok; vm_compute; reflexivity).
  assert (K1 : ct_ok gQ 0 canon (g_ct 2 0 3072)) by (apply ctb_ok; vm_compute; reflexivity).
  destruct (g_decrypts 1 canon _ K0 g_fits_canon) as [M0 D0]. destruct (g_decrypts 0 canon _ K1 g_fits_canon) as [M1 D1].
  destruct (C42_add gQ gQ_built 4 eq_refl 1 0 1 2 canon canon _ _ (g_new 2 1) (g_new 2 1) (fst g_sk) ex_s M0 M1 g_secret K0 K1 g_fits_canon g_fits_canon) as (c & E & _ & _ & _ & D).
  - intros i Hi. destruct (g_fits_canon i Hi) as [F1 F2]. unfold canon in *. split; [apply Z.le_trans with (1 := F1)|]; lia.
  - exact D0.
  - exact D1.
  - cbn. lia.
  - apply g_new_shaped; lia.
  - cbn. lia.
  - cbn. lia.
  - cbn. lia.
  - cbn. lia.
  - cbn. lia.
  - vm_compute. split; [discriminate|reflexivity].
  - vm_compute. split; [discriminate|reflexivity].
  - exists M0, M1, c. split; [exact D0|]. split; [exact D1|]. split; [exact E|].
    replace (match_factor _ _) with 3 in D by (vm_compute; reflexivity). replace (match_factor _ _) with 1 in D by (vm_compute; reflexivity). exact D.
Qed.

(** ** C48: rescaling.  The loop either runs past modulus 0, and the code panics, or divides by the last nb moduli. *)
Theorem C48_rescale : forall rQ, built_ring 9 rQ -> forall L, rN rQ = (2 ^ L)%nat ->
  forall level lo B c minScale out same sk s M,
  ct_ok rQ level B c -> (forall i, (i <= level)%nat -> B (mq (rmod rQ i)) <= 2 * mq (rmod rQ i)) -> fits rQ B ->
  secret rQ L sk s -> decrypts rQ L sk c M -> shaped (ctDegree c) lo out -> (level <= lo)%nat -> (0 < level)%nat ->
  f64_le minScale f64_zero = false -> f64_eq (ctScale c) f64_zero = false ->
  ((forall i, (i <= level)%nat -> f64_le (f64_div minScale (f64_of_Z 2)) (rescaled_scale rQ level (S i) (ctScale c)) = true) /\
   Rescale rQ same c minScale out = Panic) \/
  exists nb c', rescale_count rQ level minScale (ctScale c) nb /\ Rescale rQ same c minScale out = Done c' /\
    ((0 < nb)%nat -> ct_ok rQ (level - nb) canon c' /\ length (ctV c') = length (ctV c) /\ ctScale c' = rescaled_scale rQ level nb (ctScale c) /\
      exists M' R, decrypts rQ L sk c' M' /\ let D := product (last_moduli rQ level nb) in
        (forall k, (k < rN rQ)%nat -> D * M' k + psum (length (ctV c)) (fun j => pmul (rN rQ) (R j) (ppow (rN rQ) s j)) k = M k) /\
        (forall j k, (k < rN rQ)%nat -> Z.abs (R j k) < D /\ (nb = 1%nat -> 2 * Z.abs (R j k) < D))) /\
    (nb = 0%nat -> c' = if same then out else CopyCt c out).
Proof. exact rescale_correct. Qed.
Print Assumptions C48_rescale.

Example C48_case : exists M c', decrypts gQ 4 (fst g_sk) (g_ct 1 1 100000) M /\ Rescale gQ true (g_ct 1 1 100000) (f64_of_Z 1024) (g_ct 1 1 100000) = Done c' /\
  ct_ok gQ 0 canon c' /\ ctScale c' = rescaled_scale gQ 1 1 (f64_of_Z 100000).
Proof.
  assert (K0 : ct_ok gQ 1 canon (g_ct 1 1 100000)) by (apply ctb_ok; vm_compute; reflexivity).
  destruct (g_decrypts 1 canon _ K0 g_fits_canon) as [M D0].
  destruct (C48_rescale gQ gQ_built 4 eq_refl 1 1 canon (g_ct 1 1 100000) (f64_of_Z 1024) (g_ct 1 1 100000) true (fst g_sk) ex_s M K0) as [[H _]|(nb & c' & (H1 & H2 & H3) & E & H & _)].
  - intros i Hi. destruct (g_fits_canon i) as [F _]; [cbn; lia|]. unfold canon in *. destruct i as [|[|i]]; [vm_compute; discriminate|vm_compute; discriminate|lia].
  - exact g_fits_canon.
  - exact g_secret.
  - exact D0.
  - split; [reflexivity|]. split; [reflexivity|]. intros j Hj. cbn in Hj. destruct j as [|[|j]]; [reflexivity|reflexivity|lia].
  - lia.
  - lia.
  - vm_compute. reflexivity.
  - vm_compute. reflexivity.
  - exfalso. specialize (H 1%nat (le_n 1)). vm_compute in H. discriminate.
  - assert (nb = 1%nat) as ->.
    { destruct nb as [|[|nb]]; [vm_compute in H3; discriminate|reflexivity|clear - H1; lia]. }
    destruct H as (K & _ & S & _); [lia|]. exists M, c'. split; [exact D0|]. split; [exact E|]. split; [exact K|exact S].
Qed.
(** A minimum scale of 1 and a scale of 2^40 at level 1. *)
Example C48_panic_case : Rescale gQ true (g_ct 1 1 1099511627776) (f64_of_Z 1) (g_ct 1 1 1099511627776) = Panic.
Proof. vm_compute. reflexivity. Qed.

(** ** C54: products with constants, with the imaginary unit, negation. *)
Theorem C54_mult_by_const : forall rQ, built_ring 9 rQ -> forall L, rN rQ = (2 ^ L)%nat ->
  forall level level' B c k out sk s M,
  secret rQ L sk s -> ct_ok rQ level B c -> fits rQ B -> decrypts rQ L sk c M -> shaped (ctDegree c) level' out -> (level' <= level)%nat ->
  let '(re, im) := const_parts k in let q := f64_of_Z (mq (rmod rQ level')) in
  in_range re q -> in_range im q ->
  exists sigma a b, (sigma = f64_of_Z 1 \/ sigma = q) /\ near_product re sigma a /\ near_product im sigma b /\
    (forall x y, float_int re x -> float_int im y -> Z.abs x < 2 ^ 52 -> Z.abs y < 2 ^ 52 -> sigma = f64_of_Z 1 /\ a = x /\ b = y) /\
    ct_ok rQ level' canon (MultByConst rQ c k out) /\ ctScale (MultByConst rQ c k out) = f64_mul (ctScale c) sigma /\
    decrypts rQ L sk (MultByConst rQ c k out) (pmul (rN rQ) (pgauss (rN rQ) a b) M).
Proof. exact mult_const_any. Qed.
Print Assumptions C54_mult_by_const.

Theorem C54_mult_by_integer : forall rQ, built_ring 9 rQ -> forall L, rN rQ = (2 ^ L)%nat ->
  forall level level' B c k out sk s M,
  secret rQ L sk s -> ct_ok rQ level B c -> fits rQ B -> decrypts rQ L sk c M -> shaped (ctDegree c) level' out -> (level' <= level)%nat ->
  Z.abs k < 2 ^ 52 -> BinarySingleNaN.is_finite (ctScale c) = true ->
  ct_ok rQ level' canon (MultByConst rQ c (CInt k) out) /\ ctScale (MultByConst rQ c (CInt k) out) = ctScale c /\
  decrypts rQ L sk (MultByConst rQ c (CInt k) out) (pscale k M).
Proof. exact mult_const_int. Qed.
Print Assumptions C54_mult_by_integer.

Theorem C54_mult_by_i : forall rQ, built_ring 9 rQ -> forall L, rN rQ = (2 ^ L)%nat ->
  forall level level' B inverse c out sk s M,
  secret rQ L sk s -> ct_ok rQ level B c -> fits rQ B -> decrypts rQ L sk c M -> shaped (ctDegree c) level' out -> (level' <= level)%nat ->
  ct_ok rQ level' canon (MultByi rQ inverse c out) /\
  decrypts rQ L sk (MultByi rQ inverse c out) (pmul (rN rQ) (pgauss (rN rQ) 0 (if inverse then -1 else 1)) M).
Proof. exact mult_by_i. Qed.
Print Assumptions C54_mult_by_i.

Theorem C54_neg : forall rQ, built_ring 9 rQ -> forall L, rN rQ = (2 ^ L)%nat ->
  forall level level' c out sk s M,
  secret rQ L sk s -> ct_ok rQ level closed c -> decrypts rQ L sk c M -> shaped (ctDegree c) level' out -> (level' <= level)%nat ->
  exists c', Neg rQ c out = Some c' /\ ct_ok rQ level' closed c' /\ ctScale c' = ctScale c /\ decrypts rQ L sk c' (popp M).
Proof. exact neg_correct. Qed.
Print Assumptions C54_neg.

(** From 2^52 on the float64 addition of 0.5 rounds to the next integer. *)
Theorem C54_mult_by_const_refuted : exists rQ L sk s c M,
  built_ring 9 rQ /\ rN rQ = (2 ^ L)%nat /\ secret rQ L sk s /\ ct_ok rQ 0 canon c /\ ctDegree c = 1%nat /\ decrypts rQ L sk c M /\
  ~ decrypts rQ L sk (MultByConst rQ c (CInt (2 ^ 52 + 1)) c) (pscale (2 ^ 52 + 1) M).
Proof. exact mult_const_wrong. Qed.
Print Assumptions C54_mult_by_const_refuted.

(** A receiver of a higher level keeps its level and its old upper rows. *)
Theorem C54_receiver_level_refuted : exists rQ L sk s c M out c',
  built_ring 9 rQ /\ rN rQ = (2 ^ L)%nat /\ secret rQ L sk s /\ ct_ok rQ 0 canon c /\ ct_ok rQ 1 canon out /\ ctDegree c = 1%nat /\ ctDegree out = 1%nat /\
  decrypts rQ L sk c M /\ Neg rQ c out = Some c' /\ ~ decrypts rQ L sk c' (popp M).
Proof. exact neg_level_wrong. Qed.
Print Assumptions C54_receiver_level_refuted.

Example C54_case : exists M, decrypts gQ 4 (fst g_sk) (g_ct 1 1 1024) M /\ decrypts gQ 4 (fst g_sk) (MultByConst gQ (g_ct 1 1 1024) (CInt (-7)) (g_new 1 1)) (pscale (-7) M).
Proof.
  assert (K0 : ct_ok gQ 1 canon (g_ct 1 1 1024)) by (apply ctb_ok; vm_compute; reflexivity).
  destruct (g_decrypts 1 canon _ K0 g_fits_canon) as [M D0]. exists M. split; [exact D0|].
  apply (C54_mult_by_integer gQ gQ_built 4 eq_refl 1 1 canon (g_ct 1 1 1024) (-7) (g_new 1 1) (fst g_sk) ex_s M g_secret K0 g_fits_canon D0);
    [apply (g_new_shaped 1 1); lia|lia|reflexivity|vm_compute; reflexivity].
Qed.

(** ** C55: products. *)
Theorem C55_mul : forall rQ, built_ring 9 rQ -> forall L, rN rQ = (2 ^ L)%nat ->
  forall level0 level1 lo d B0 B1 square c0 c1 out scratch sk s M0 M1,
  secret rQ L sk s -> ct_ok rQ level0 B0 c0 -> ct_ok rQ level1 B1 c1 -> fits rQ B0 -> fits rQ B1 -> decrypts rQ L sk c0 M0 -> decrypts rQ L sk c1 M1 ->
  ctDegree c0 = 1%nat -> ctDegree c1 = 1%nat -> (square = true -> c0 = c1) -> (1 <= d <= 2)%nat -> shaped d lo out ->
  let level := Nat.min (Nat.min level0 level1) lo in
  exists c, Mul rQ square c0 c1 out scratch = Some c /\ ct_ok rQ level canon c /\ ctDegree c = 2%nat /\ ctScale c = f64_mul (ctScale c0) (ctScale c1) /\
    decrypts rQ L sk c (pmul (rN rQ) M0 M1).
Proof. exact CkksMul.mul_correct. Qed.
Print Assumptions C55_mul.

Theorem C55_mul_plaintext : forall rQ rP L, ring_pair rQ rP -> rN rQ = (2 ^ L)%nat ->
  forall relin levelP rlk level0 level1 lo B0 B1 square c0 c1 out scratch sk s M0 M1,
  secret rQ L sk s -> ct_ok rQ level0 B0 c0 -> ct_ok rQ level1 B1 c1 -> fits rQ B0 -> fits rQ B1 -> decrypts rQ L sk c0 M0 -> decrypts rQ L sk c1 M1 ->
  ctDegree c0 = 0%nat /\ ctDegree c1 = 1%nat \/ ctDegree c0 = 1%nat /\ ctDegree c1 = 0%nat -> shaped 1 lo out ->
  let level := Nat.min (Nat.min level0 level1) lo in
  exists c, (if relin : bool then MulRelin rQ rP levelP rlk square c0 c1 out scratch else Mul rQ square c0 c1 out scratch) = Some c /\
    ct_ok rQ level canon c /\ ctDegree c = 1%nat /\ ctScale c = f64_mul (ctScale c0) (ctScale c1) /\ decrypts rQ L sk c (pmul (rN rQ) M0 M1).
Proof. exact mul_plain_any. Qed.
Print Assumptions C55_mul_plaintext.

Theorem C55_mul_relin : forall rQ rP L, ring_pair rQ rP -> rN rQ = (2 ^ L)%nat ->
  forall levelK levelP level0 level1 lo B0 B1 rlk square c0 c1 out scratch sk s M0 M1 DQ Be Bs,
  secret rQ L sk s -> key_levels rQ rP levelK levelP -> ct_ok rQ level0 B0 c0 -> ct_ok rQ level1 B1 c1 -> fits rQ B0 -> fits rQ B1 ->
  decrypts rQ L sk c0 M0 -> decrypts rQ L sk c1 M1 -> ctDegree c0 = 1%nat -> ctDegree c1 = 1%nat -> (square = true -> c0 = c1) -> shaped 1 lo out ->
  let level := Nat.min (Nat.min level0 level1) lo in (level <= levelK)%nat ->
  swkey_ok rQ rP L levelK levelP rlk s (ppow (rN rQ) s 2) Be -> blocks_below rQ level levelP DQ -> 0 <= Be -> 0 <= Bs -> pbound (rN rQ) Bs s ->
  exists c E, MulRelin rQ rP levelP rlk square c0 c1 out scratch = Some c /\ ct_ok rQ level lazy c /\ ctDegree c = 1%nat /\
    ctScale c = f64_mul (ctScale c0) (ctScale c1) /\ switch_noise rQ rP level levelP DQ Be Bs E /\ decrypts rQ L sk c (padd (pmul (rN rQ) M0 M1) E).
Proof. exact mul_relin. Qed.
Print Assumptions C55_mul_relin.

(** A receiver of degree 2 keeps its third polynomial. *)
Theorem C55_receiver_degree_refuted : exists rQ rP L sk s rlk c0 c1 out scratch M0 M1 c,
  ring_pair rQ rP /\ rN rQ = (2 ^ L)%nat /\ secret rQ L sk s /\ key_levels rQ rP 1 0 /\ swkey_ok rQ rP L 1 0 rlk s (ppow (rN rQ) s 2) 1 /\
  blocks_below rQ 0 0 12289 /\ pbound (rN rQ) 1 s /\
  ct_ok rQ 0 canon c0 /\ ct_ok rQ 0 canon c1 /\ ct_ok rQ 0 canon out /\ ctDegree c0 = 1%nat /\ ctDegree c1 = 1%nat /\ ctDegree out = 2%nat /\
  decrypts rQ L sk c0 M0 /\ decrypts rQ L sk c1 M1 /\ MulRelin rQ rP 0 rlk false c0 c1 out scratch = Some c /\
  forall E, switch_noise rQ rP 0 0 12289 1 1 E -> ~ decrypts rQ L sk c (padd (pmul (rN rQ) M0 M1) E).
Proof. exact relin_degree_wrong. Qed.
Print Assumptions C55_receiver_degree_refuted.

Example C55_case : exists M0 M1 c E, decrypts gQ 4 (fst g_sk) (g_ct 1 1 1024) M0 /\ decrypts gQ 4 (fst g_sk) (g_ct 2 1 1024) M1 /\
  MulRelin gQ gP 0 g_rlk false (g_ct 1 1 1024) (g_ct 2 1 1024) (g_new 1 1) g_scratch = Some c /\ switch_noise gQ gP 1 0 12289 1 1 E /\
  decrypts gQ 4 (fst g_sk) c (padd (pmul 16 M0 M1) E).
Proof.
  assert (K0 : ct_ok gQ 1 canon (g_ct 1 1 1024)) by (apply ctb_ok; vm_compute; reflexivity).
  assert (K1 : ct_ok gQ 1 canon (g_ct 2 1 1024)) by (apply ctb_ok; vm_compute; reflexivity).
  destruct (g_decrypts 1 canon _ K0 g_fits_canon) as [M0 D0]. destruct (g_decrypts 1 canon _ K1 g_fits_canon) as [M1 D1].
  destruct (C55_mul_relin gQ gP 4 gpair eq_refl 1 0 1 1 1 canon canon g_rlk false _ _ (g_new 1 1) g_scratch (fst g_sk) ex_s M0 M1 12289 1 1 g_secret g_levels K0 K1 g_fits_canon g_fits_canon D0 D1 eq_refl eq_refl) as (c & E & Ec & _ & _ & _ & HN & D).
  - discriminate.
  - apply (g_new_shaped 1 1); lia.
  - cbn. lia.
  - exact g_rlk_ok.
  - apply g_blocks. cbn. lia.
  - lia.
  - lia.
  - exact g_s_bound.
  - exists M0, M1, c, E. split; [exact D0|]. split; [exact D1|]. split; [exact Ec|]. split; [exact HN|exact D].
Qed.

(** ** C56: MulRelin leaves words up to 6q; as operands they are fine for additions and products (C42, C54, C55 with [lazy]), but
    negation, subtraction and rescaling of them give wrong results. *)
Theorem C56_sum_of_products : forall rQ, built_ring 12 rQ -> forall L, rN rQ = (2 ^ L)%nat -> forall level c0 c1 out pool sk s M0 M1,
  secret rQ L sk s -> ct_ok rQ level lazy c0 -> ct_ok rQ level lazy c1 -> decrypts rQ L sk c0 M0 -> decrypts rQ L sk c1 M1 ->
  ctDegree c0 = 1%nat -> ctDegree c1 = 1%nat -> ctScale c0 = ctScale c1 -> shaped 1 level out -> shaped 2 level pool ->
  exists c, Add rQ c0 c1 out pool = Some c /\ ct_ok rQ level (fun q => 11 * q) c /\ ctDegree c = 1%nat /\ decrypts rQ L sk c (padd M0 M1).
Proof. exact lazy_sum. Qed.
Print Assumptions C56_sum_of_products.

(** Multiplying by 1 reduces the words. *)
Theorem C56_reduced_by_one : forall rQ, built_ring 9 rQ -> forall L, rN rQ = (2 ^ L)%nat ->
  forall level c sk s M,
  secret rQ L sk s -> ct_ok rQ level lazy c -> decrypts rQ L sk c M -> BinarySingleNaN.is_finite (ctScale c) = true ->
  let c' := MultByConst rQ c (CInt 1) c in ct_ok rQ level canon c' /\ ctScale c' = ctScale c /\ decrypts rQ L sk c' M.
Proof. exact lazy_reduce. Qed.
Print Assumptions C56_reduced_by_one.

Theorem C56_negation_refuted : exists rQ rP L sk s c M c',
  ring_pair rQ rP /\ rN rQ = (2 ^ L)%nat /\ relin_product rQ rP L sk s 0 c /\ decrypts rQ L sk c M /\ Neg rQ c c = Some c' /\ ~ decrypts rQ L sk c' (popp M).
Proof. exact neg_product_wrong. Qed.
Print Assumptions C56_negation_refuted.

Theorem C56_subtraction_refuted : exists rQ rP L sk s c0 M0 c M c',
  ring_pair rQ rP /\ rN rQ = (2 ^ L)%nat /\ relin_product rQ rP L sk s 0 c /\ decrypts rQ L sk c M /\
  ct_ok rQ 0 canon c0 /\ ctDegree c0 = 1%nat /\ ctScale c0 = ctScale c /\ decrypts rQ L sk c0 M0 /\
  SubNew rQ c0 c (NewCiphertext (rN rQ) 1 0 f64_zero) = Some c' /\ ~ decrypts rQ L sk c' (psub M0 M).
Proof. exact sub_product_wrong. Qed.
Print Assumptions C56_subtraction_refuted.

Theorem C56_rescaling_refuted : exists rQ rP L sk s c M minScale c',
  ring_pair rQ rP /\ rN rQ = (2 ^ L)%nat /\ relin_product rQ rP L sk s 1 c /\ decrypts rQ L sk c M /\
  Rescale rQ true c minScale c = Done c' /\ ct_ok rQ 0 canon c' /\ ctDegree c' = 1%nat /\
  let D := mq (rmod rQ 1) in
  ~ exists M' R, decrypts rQ L sk c' M' /\
      (forall k, (k < rN rQ)%nat -> D * M' k + psum 2 (fun j => pmul (rN rQ) (R j) (ppow (rN rQ) s j)) k = M k) /\
      (forall j k, (k < rN rQ)%nat -> 2 * Z.abs (R j k) < D).
Proof. exact rescale_product_wrong. Qed.
Print Assumptions C56_rescaling_refuted.

Example C56_case : exists M c, relin_product gQ gP 4 (fst g_sk) ex_s 0 c /\ ct_ok gQ 0 lazy c /\ ~ ct_ok gQ 0 (fun q => 4 * q) c /\
  decrypts gQ 4 (fst g_sk) c M /\ decrypts gQ 4 (fst g_sk) (MultByConst gQ c (CInt 1) c) M.
Proof.
  destruct p0_ok as (c & _ & Ev & Hc & HP & Es). destruct (g_decrypts 0 lazy c Hc (fits_lazy gQ gQ_built 4 eq_refl)) as [M D]. exists M, c.
  split; [exact HP|]. split; [exact Hc|]. split.
  - intros (_ & _ & _ & H). destruct (H 0%nat) as [_ [_ H0]]; [rewrite Ev; vm_compute; lia|]. destruct (H0 0%nat (le_n 0)) as [_ H1].
    unfold comp in H1. rewrite Ev in H1. assert (F : forallb (fun k => coeff (nth 0 p0_v []) 0 k <? 4 * 12289) (seq 0 16) = true).
    { apply forallb_forall. intros k Hk. apply in_seq in Hk. apply Z.ltb_lt. apply (H1 k). cbn. lia. }
    vm_compute in F. discriminate.
  - split; [exact D|]. apply (C56_reduced_by_one gQ gQ_built 4 eq_refl 0 c (fst g_sk) ex_s M g_secret Hc D). rewrite Es. vm_compute. reflexivity.
Qed.
(** ** C57: relinearization. *)
Theorem C57_relinearize : forall rQ rP L, ring_pair rQ rP -> rN rQ = (2 ^ L)%nat ->
  forall levelK levelP level0 lo d B rlk c out scratch sk s M DQ Be Bs,
  secret rQ L sk s -> key_levels rQ rP levelK levelP -> ct_ok rQ level0 B c -> fits rQ B -> words rQ level0 canon (comp c 2) -> decrypts rQ L sk c M ->
  ctDegree c = 2%nat -> (1 <= d)%nat -> shaped d lo out -> let level := Nat.min level0 lo in (level <= levelK)%nat ->
  swkey_ok rQ rP L levelK levelP rlk s (ppow (rN rQ) s 2) Be -> blocks_below rQ level levelP DQ -> 0 <= Be -> 0 <= Bs -> pbound (rN rQ) Bs s ->
  exists c' E, Relinearize rQ rP levelP rlk c out scratch = Some c' /\ ct_ok rQ level B c' /\ ctDegree c' = 1%nat /\ ctScale c' = ctScale c /\
    switch_noise rQ rP level levelP DQ Be Bs E /\ decrypts rQ L sk c' (padd M E).
Proof. exact relinearize. Qed.
Print Assumptions C57_relinearize.

Example C57_case : exists M c E, decrypts gQ 4 (fst g_sk) x3 M /\ Relinearize gQ gP 0 g_rlk x3 (g_new 1 0) g_scratch = Some c /\
  switch_noise gQ gP 0 0 12289 1 1 E /\ decrypts gQ 4 (fst g_sk) c (padd M E).
Proof.
  destruct (g_decrypts 0 canon _ x3_ok g_fits_canon) as [M D0].
  destruct (C57_relinearize gQ gP 4 gpair eq_refl 1 0 0 0 1 canon g_rlk x3 (g_new 1 0) g_scratch (fst g_sk) ex_s M 12289 1 1 g_secret g_levels x3_ok g_fits_canon) as (c & E & Ec & _ & _ & _ & HN & D).
  - apply x3_ok. cbn. lia.
  - exact D0.
  - reflexivity.
  - lia.
  - apply (g_new_shaped 1 0); lia.
  - cbn. lia.
  - exact g_rlk_ok.
  - apply g_blocks. cbn. lia.
  - lia.
  - lia.
  - exact g_s_bound.
  - exists M, c, E. split; [exact D0|]. split; [exact Ec|]. split; [exact HN|exact D].
Qed.

(** ** C58: key switching, rotations, conjugation. *)
Theorem C58_switch_keys : forall rQ rP L, ring_pair rQ rP -> rN rQ = (2 ^ L)%nat ->
  forall levelK levelP level0 level B key c out scratch sk sk' s s' M DQ Be Bs,
  secret rQ L sk s -> secret rQ L sk' s' -> key_levels rQ rP levelK levelP -> ct_ok rQ level0 B c -> fits rQ B -> words rQ level0 canon (comp c 1) -> decrypts rQ L sk' c M ->
  ctDegree c = 1%nat -> shaped 1 level out -> (level <= level0)%nat -> (level <= levelK)%nat ->
  swkey_ok rQ rP L levelK levelP key s s' Be -> blocks_below rQ level levelP DQ -> 0 <= Be -> 0 <= Bs -> pbound (rN rQ) Bs s ->
  exists c' E, SwitchKeys rQ rP levelP key c out scratch = Some c' /\ ct_ok rQ level B c' /\ ctDegree c' = 1%nat /\ ctScale c' = ctScale c /\
    switch_noise rQ rP level levelP DQ Be Bs E /\ decrypts rQ L sk c' (padd M E).
Proof. exact switch_keys. Qed.
Print Assumptions C58_switch_keys.

Theorem C58_rotate : forall rQ rP L, ring_pair rQ rP -> rN rQ = (2 ^ L)%nat ->
  forall levelK levelP level0 level B rtks key k c out scratch sk s M DQ Be Bs,
  secret rQ L sk s -> key_levels rQ rP levelK levelP -> ct_ok rQ level0 B c -> fits rQ B -> words rQ level0 (fun q => 2 * q) (comp c 1) -> decrypts rQ L sk c M ->
  ctDegree c = 1%nat -> shaped 1 level out -> (level <= level0)%nat -> (level <= levelK)%nat ->
  let g := GaloisElementForColumnRotationBy rQ k in k <> 0 -> rtks g = Some key -> rotation_key rQ rP L levelK levelP g key s Be ->
  blocks_below rQ level levelP DQ -> 0 <= Be -> 0 <= Bs -> pbound (rN rQ) Bs s ->
  exists c' E, Rotate rQ rP levelP rtks k false c out scratch = Some c' /\ ct_ok rQ level B c' /\ ctDegree c' = 1%nat /\ ctScale c' = ctScale c /\
    switch_noise rQ rP level levelP DQ Be Bs E /\ decrypts rQ L sk c' (padd (pauto (rN rQ) (Z.to_nat g) M) E).
Proof. exact rotate_correct. Qed.
Print Assumptions C58_rotate.

Theorem C58_conjugate : forall rQ rP L, ring_pair rQ rP -> rN rQ = (2 ^ L)%nat ->
  forall levelK levelP level0 level B rtks key c out scratch sk s M DQ Be Bs,
  secret rQ L sk s -> key_levels rQ rP levelK levelP -> ct_ok rQ level0 B c -> fits rQ B -> words rQ level0 (fun q => 2 * q) (comp c 1) -> decrypts rQ L sk c M ->
  ctDegree c = 1%nat -> shaped 1 level out -> (level <= level0)%nat -> (level <= levelK)%nat ->
  let g := 2 * Z.of_nat (rN rQ) - 1 in rtks g = Some key -> rotation_key rQ rP L levelK levelP g key s Be ->
  blocks_below rQ level levelP DQ -> 0 <= Be -> 0 <= Bs -> pbound (rN rQ) Bs s ->
  exists c' E, Conjugate rQ rP levelP rtks false c out scratch = Some c' /\ ct_ok rQ level B c' /\ ctDegree c' = 1%nat /\ ctScale c' = ctScale c /\
    switch_noise rQ rP level levelP DQ Be Bs E /\ decrypts rQ L sk c' (padd (pauto (rN rQ) (Z.to_nat g) M) E).
Proof. exact conjugate_correct. Qed.
Print Assumptions C58_conjugate.

Theorem C58_rotate_by_zero : forall rQ rP L, ring_pair rQ rP -> rN rQ = (2 ^ L)%nat ->
  forall levelP level0 level B rtks inplace c out scratch sk s M,
  secret rQ L sk s -> ct_ok rQ level0 B c -> fits rQ B -> decrypts rQ L sk c M -> ctDegree c = 1%nat -> shaped 1 level out -> (level <= level0)%nat ->
  exists c', Rotate rQ rP levelP rtks 0 inplace c out scratch = Some c' /\ ct_ok rQ level B c' /\ ctScale c' = ctScale c /\ decrypts rQ L sk c' M.
Proof. exact rotate_zero. Qed.
Print Assumptions C58_rotate_by_zero.

Example C58_case : exists M c E, decrypts gQ 4 (fst g_sk) (g_ct 1 1 1024) M /\ Rotate gQ gP 0 g_rtks 1 false (g_ct 1 1 1024) (g_new 1 1) g_scratch = Some c /\
  switch_noise gQ gP 1 0 12289 1 1 E /\ decrypts gQ 4 (fst g_sk) c (padd (pauto 16 5 M) E).
Proof.
  assert (K0 : ct_ok gQ 1 canon (g_ct 1 1 1024)) by (apply ctb_ok; vm_compute; reflexivity).
  destruct (g_decrypts 1 canon _ K0 g_fits_canon) as [M D0].
  destruct (C58_rotate gQ gP 4 gpair eq_refl 1 0 1 1 canon g_rtks g_rot5 1 _ (g_new 1 1) g_scratch (fst g_sk) ex_s M 12289 1 1 g_secret g_levels K0 g_fits_canon) as (c & E & Ec & _ & _ & _ & HN & D).
  - apply Examples.wordsb_ok. vm_compute. reflexivity.
  - exact D0.
  - reflexivity.
  - apply (g_new_shaped 1 1); lia.
  - lia.
  - lia.
  - discriminate.
  - vm_compute. reflexivity.
  - replace (GaloisElementForColumnRotationBy gQ 1) with 5 by (vm_compute; reflexivity). exact g_rot5_ok.
  - apply g_blocks. lia.
  - lia.
  - lia.
  - exact g_s_bound.
  - exists M, c, E. split; [exact D0|]. split; [exact Ec|]. split; [exact HN|].
    replace (Z.to_nat (GaloisElementForColumnRotationBy gQ 1)) with 5%nat in D by (vm_compute; reflexivity). exact D.
Qed.

(** ** C59: adding a constant, in place; into another receiver only the first polynomial is written. *)
Theorem C59_add_const : forall rQ, built_ring 9 rQ -> forall L, rN rQ = (2 ^ L)%nat ->
  forall level B c k sk s M,
  secret rQ L sk s -> ct_ok rQ level B c -> fits rQ B -> decrypts rQ L sk c M ->
  BinarySingleNaN.is_finite (ctScale c) = true -> (0 <= BinarySingleNaN.B2R (ctScale c))%R ->
  in_range (fst (const_parts k)) (ctScale c) -> in_range (snd (const_parts k)) (ctScale c) ->
  exists a b, near_product (fst (const_parts k)) (ctScale c) a /\ near_product (snd (const_parts k)) (ctScale c) b /\
    ct_ok rQ level B (AddConst rQ c k c) /\ ctDegree (AddConst rQ c k c) = ctDegree c /\ ctScale (AddConst rQ c k c) = ctScale c /\
    decrypts rQ L sk (AddConst rQ c k c) (padd M (pgauss (rN rQ) a b)).
Proof. exact add_const_any. Qed.
Print Assumptions C59_add_const.

Theorem C59_add_const_refuted : exists rQ L sk s c M scale,
  built_ring 9 rQ /\ rN rQ = (2 ^ L)%nat /\ secret rQ L sk s /\ ct_ok rQ 0 canon c /\ ctDegree c = 1%nat /\ ctScale c = f64_of_Z 1024 /\ decrypts rQ L sk c M /\
  ~ decrypts rQ L sk (AddConst rQ c (CInt 1) (NewCiphertext (rN rQ) 1 0 scale)) (padd M (pgauss (rN rQ) 1024 0)).
Proof. exact add_const_wrong. Qed.
Print Assumptions C59_add_const_refuted.

(** ** C60: rotating in place. *)
Theorem C60_rotate_in_place_refuted : exists rQ rP L sk s rtks key c scratch M c',
  ring_pair rQ rP /\ rN rQ = (2 ^ L)%nat /\ secret rQ L sk s /\ key_levels rQ rP 1 0 /\
  rtks (GaloisElementForColumnRotationBy rQ 1) = Some key /\ rotation_key rQ rP L 1 0 (GaloisElementForColumnRotationBy rQ 1) key s 1 /\
  blocks_below rQ 0 0 12289 /\ pbound (rN rQ) 1 s /\ ct_ok rQ 0 canon c /\ ctDegree c = 1%nat /\ decrypts rQ L sk c M /\
  Rotate rQ rP 0 rtks 1 true c c scratch = Some c' /\
  forall E, switch_noise rQ rP 0 0 12289 1 1 E -> ~ decrypts rQ L sk c' (padd (pauto (rN rQ) (Z.to_nat (GaloisElementForColumnRotationBy rQ 1)) M) E).
Proof. exact rotate_in_place_wrong. Qed.
Print Assumptions C60_rotate_in_place_refuted.

