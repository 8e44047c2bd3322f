(** Properties C01-C05: modular arithmetic on 64-bit words.
    [W] is 2^64.  Every theorem is about the transcription of
    /repo/ring/modular_reduction.go and /repo/ring/utils.go in ModRed.v. *)
From Verif Require Import Word ModRed Arith ModRedProofs ModRedProps.

(** C01.  MRed x y is the canonical residue r with r * 2^64 = x*y (mod q). *)
Theorem C01_montgomery_product :
  forall q x y,
    Z.odd q = true -> 2 <= q < 2 ^ 63 -> 0 <= x < W -> 0 <= y < W -> x * y < q * W ->
    let r := MRed x y q (MRedParams q) in
    0 <= r < q /\ (r * W) mod q = (x * y) mod q /\
    (forall r', 0 <= r' < q -> (r' * W) mod q = (x * y) mod q -> r' = r).
Proof. exact C01_lemma. Qed.
Print Assumptions C01_montgomery_product.

Theorem C01_montgomery_product_lazy :
  forall q x y,
    Z.odd q = true -> 2 <= q < 2 ^ 63 -> 0 <= x < W -> 0 <= y < W -> x * y < q * W ->
    let r := MRedConstant x y q (MRedParams q) in
    0 < r < 2 * q /\ (r * W) mod q = (x * y) mod q.
Proof. exact C01_lazy_lemma. Qed.
Print Assumptions C01_montgomery_product_lazy.

(** The hypothesis x*y < q*2^64 is met whenever one operand is reduced. *)
Theorem C01_reduced_operand :
  forall q x y, 0 < q -> 0 <= x < W -> 0 <= y < q -> x * y < q * W.
Proof. exact C01_reduced_lemma. Qed.
Print Assumptions C01_reduced_operand.

(** Outside that range the result is wrong: with both operands at 2^64-1 the
    returned word is not in the right residue class. *)
Theorem C01_unreduced_refuted :
  exists q x y, Z.odd q = true /\ 2 <= q < 2 ^ 63 /\ 0 <= x < W /\ 0 <= y < W /\
    (MRed x y q (MRedParams q) * W) mod q <> (x * y) mod q.
Proof. exact C01_refuted_lemma. Qed.
Print Assumptions C01_unreduced_refuted.

Example C01_case :
  MRed 18446744073709551615 1152921504606584832 1152921504606584833 (MRedParams 1152921504606584833)
    = 70931689836085503.
Proof. vm_compute. reflexivity. Qed.

(** C02. *)
Theorem C02_montgomery_constant :
  forall q, Z.odd q = true -> 0 <= q < W ->
    (q * MRedParams q) mod W = 1 /\ 0 <= MRedParams q < W.
Proof. exact C02_lemma. Qed.
Print Assumptions C02_montgomery_constant.

Theorem C02_even_modulus_has_no_constant :
  forall q k, Z.odd q = false -> (q * k) mod W <> 1.
Proof. exact C02_even_lemma. Qed.
Print Assumptions C02_even_modulus_has_no_constant.

Example C02_case : (1152921504606584833 * MRedParams 1152921504606584833) mod W = 1.
Proof. vm_compute. reflexivity. Qed.

(** C03. *)
Theorem C03_barrett_product :
  forall q x y, 2 <= q <= 2 ^ 63 -> 0 <= x < W -> 0 <= y < W ->
    BRed x y q (BRedParams q) = (x * y) mod q.
Proof. exact C03_mul_lemma. Qed.
Print Assumptions C03_barrett_product.

Theorem C03_barrett_product_lazy :
  forall q x y, 2 <= q <= 2 ^ 63 -> 0 <= x < W -> 0 <= y < W ->
    0 <= BRedConstant x y q (BRedParams q) < 2 * q /\
    BRedConstant x y q (BRedParams q) mod q = (x * y) mod q.
Proof. exact C03_mul_lazy_lemma. Qed.
Print Assumptions C03_barrett_product_lazy.

Theorem C03_barrett_reduction :
  forall q a, 2 <= q <= 2 ^ 63 -> 0 <= a < W -> BRedAdd a q (BRedParams q) = a mod q.
Proof. exact C03_red_lemma. Qed.
Print Assumptions C03_barrett_reduction.

Theorem C03_barrett_reduction_lazy :
  forall q a, 2 <= q <= 2 ^ 63 -> 0 <= a < W ->
    0 <= BRedAddConstant a q (BRedParams q) < 2 * q /\
    BRedAddConstant a q (BRedParams q) mod q = a mod q.
Proof. exact C03_red_lazy_lemma. Qed.
Print Assumptions C03_barrett_reduction_lazy.

Theorem C03_conditional_subtraction :
  forall q a, 0 < q <= 2 ^ 63 -> 0 <= a < 2 * q -> CRed a q = a mod q.
Proof. exact C03_cred_lemma. Qed.
Print Assumptions C03_conditional_subtraction.

Example C03_case :
  BRed 18446744073709551615 18446744073709551614 9223372036854775783 (BRedParams 9223372036854775783)
   = (18446744073709551615 * 18446744073709551614) mod 9223372036854775783.
Proof. vm_compute. reflexivity. Qed.

(** C04. *)
Theorem C04_to_montgomery :
  forall q a, 2 <= q < 2 ^ 63 -> 0 <= a < W -> MForm a q (BRedParams q) = (a * W) mod q.
Proof. exact C04_to_lemma. Qed.
Print Assumptions C04_to_montgomery.

Theorem C04_to_montgomery_lazy :
  forall q a, 2 <= q < 2 ^ 63 -> 0 <= a < W ->
    0 <= MFormConstant a q (BRedParams q) < 2 * q /\
    MFormConstant a q (BRedParams q) mod q = (a * W) mod q.
Proof. exact C04_to_lazy_lemma. Qed.
Print Assumptions C04_to_montgomery_lazy.

Theorem C04_from_montgomery :
  forall q a, Z.odd q = true -> 2 <= q < 2 ^ 63 -> 0 <= a < W ->
    0 <= InvMForm a q (MRedParams q) < q /\
    (InvMForm a q (MRedParams q) * W) mod q = a mod q.
Proof. exact C04_from_lemma. Qed.
Print Assumptions C04_from_montgomery.

Theorem C04_from_montgomery_lazy :
  forall q a, Z.odd q = true -> 2 <= q < 2 ^ 63 -> 0 <= a < W ->
    0 <= InvMFormConstant a q (MRedParams q) <= q /\
    (InvMFormConstant a q (MRedParams q) * W) mod q = a mod q.
Proof. exact C04_from_lazy_lemma. Qed.
Print Assumptions C04_from_montgomery_lazy.

Theorem C04_round_trip :
  forall q a, Z.odd q = true -> 2 <= q < 2 ^ 63 -> 0 <= a < W ->
    InvMForm (MForm a q (BRedParams q)) q (MRedParams q) = a mod q /\
    MForm (InvMForm a q (MRedParams q)) q (BRedParams q) = a mod q.
Proof. exact C04_round_trip_lemma. Qed.
Print Assumptions C04_round_trip.

Example C04_case : MForm 5 97 (BRedParams 97) = 14 /\ InvMForm 14 97 (MRedParams 97) = 5.
Proof. vm_compute. split; reflexivity. Qed.

(** C05. *)
Theorem C05_exponentiation :
  forall q x e, 2 <= q <= 2 ^ 63 -> 0 <= x < W -> 0 <= e < W -> ModExp x e q = (x ^ e) mod q.
Proof. exact C05_exp_lemma. Qed.
Print Assumptions C05_exponentiation.

Theorem C05_inverse :
  forall q x, prime q -> 2 <= q <= 2 ^ 63 -> 0 <= x < W -> ~ (q | x) ->
    (x * ModExp x (q - 2) q) mod q = 1 /\ 0 <= ModExp x (q - 2) q < q.
Proof. exact C05_inverse_lemma. Qed.
Print Assumptions C05_inverse.

Theorem C05_montgomery_exponentiation :
  forall q b e, Z.odd q = true -> 2 <= q < 2 ^ 63 -> 0 <= e < 2 ^ 63 ->
    ModexpMontgomery ((b * W) mod q) e q (MRedParams q) (BRedParams q) = (b ^ e * W) mod q.
Proof. exact C05_mont_exp_lemma. Qed.
Print Assumptions C05_montgomery_exponentiation.

Theorem C05_power_of_two :
  forall q x n, Z.odd q = true -> 2 <= q < 2 ^ 63 -> 0 <= n <= 64 -> 0 <= x < W -> x * 2 ^ n < q * W ->
    0 <= PowerOf2 x n q (MRedParams q) < q /\
    (PowerOf2 x n q (MRedParams q) * W) mod q = (x * 2 ^ n) mod q.
Proof. exact C05_pow2_lemma. Qed.
Print Assumptions C05_power_of_two.

Example C05_case : ModExp 5 95 97 = 39 /\ (5 * 39) mod 97 = 1 /\ prime 97 /\ ~ (97 | 5).
Proof. exact C05_case_lemma. Qed.
