(** Vocabulary for messages: vectors of complex numbers carried by ciphertexts. *)
From Coq Require Import Reals ZArith.
From Coquelicot Require Import Complex.
From Verif Require Import Word PolySpec Ring RingOps RNSSpec GadgetSpec Gadget Rlwe RlweSpec Ckks CkksSpec SlotSpec EncSpec.

(** The polynomial P stands for the 2^L values v at scale s: every slot of P is within eps of s times its value, the
    values being repeated with period 2^L. *)
Definition stands_for (N L : nat) (P : poly) (s : R) (v : nat -> C) (eps : R) : Prop :=
  forall k, (Cmod (slot N P k - RtoC s * v (k mod 2 ^ L)%nat)%C <= eps)%R.
(** Under the key sk the ciphertext carries the message v, with an error of at most eps (before the division by the
    scale); the ring has degree 2^(m+1). *)
Definition carries (r : Ring) (m L : nat) (sk : rows) (c : Ct) (v : nat -> C) (eps : R) : Prop :=
  exists P, decrypts r (m + 1) sk c P /\ stands_for (rN r) L P (fval (ctScale c)) v eps.
(** The values have modulus at most A. *)
Definition vbound (v : nat -> C) (A : R) : Prop := (0 <= A)%R /\ forall k, (Cmod (v k) <= A)%R.

(** The public key holds an encryption of 0 under s, with an error of at most Be. *)
Definition public_key_ok (rQ rP : Ring) (L : nat) (pk : (rows * rows) * (rows * rows)) (s : poly) (Be : Z) : Prop :=
  exists b0 b1 e, qp_ntt rQ rP L (maxLevel rQ) (maxLevel rP) canon (fst pk) b0 /\ qp_ntt rQ rP L (maxLevel rQ) (maxLevel rP) canon (snd pk) b1 /\
    (forall q, peq (rN rQ) q (padd b0 (pmul (rN rQ) b1 s)) e) /\ pbound (rN rQ) Be e.

(** What a fresh encryption can add to a coefficient: U of the encryption is at most Bu, its errors at most Bf, the error of the public key
    at most Be, the secret at most Bs; p is the special modulus divided out. *)
Definition fresh_size (n : nat) (p Bu Be Bf Bs : Z) : R :=
  (IZR (Z.of_nat n * (Bu * Be) + Bf + Z.of_nat n * (Bf * Bs)) / IZR p + (1 + / 2 ^ 42) * IZR (1 + Z.of_nat n * Bs))%R.
(** What a key switching can add to a coefficient (the bound of [switch_noise]). *)
Definition switch_size (rQ rP : Ring) (levelQ levelP : nat) (DQ Be Bs : Z) : R :=
  let n := Z.of_nat (rN rQ) in
  ((1 + / 2 ^ 42) * (IZR (Z.of_nat (ceil_div (levelQ + 1) (levelP + 1)) * (n * (DQ * Be))) / IZR (product (prefix rP levelP)) + IZR (1 + n * Bs)))%R.
(** The error of an encoding (before the division by the scale). *)
Definition encode_eps (L : nat) (s A delta : R) : R := (2 ^ L * (2 + s * A * growth delta (L + 2)))%R.
(** The error of a product of two messages of size A0, A1 with errors e0, e1 at the scales s0, s1: 2^-52 for the product of the scales. *)
Definition product_eps (s0 s1 A0 A1 e0 e1 : R) : R := (s0 * A0 * e1 + s1 * A1 * e0 + e0 * e1 + s0 * s1 * (A0 * A1) * / 2 ^ 52)%R.
(** The error of a sum: the operands are multiplied by the integers k0, k1 to meet at the scale s. *)
Definition sum_eps (s s0 s1 A0 A1 e0 e1 : R) (k0 k1 : Z) : R :=
  (IZR k0 * e0 + Rabs (IZR k0 * s0 - s) * A0 + (IZR k1 * e1 + Rabs (IZR k1 * s1 - s) * A1))%R.
(** The error after a division by D, done by nb moduli in turn: the roundings of the d+1 polynomials, multiplied by the powers of a secret
    of size Bs, and the error of the nb divisions of the scale in float64. *)
Definition rescale_eps (n d : nat) (Bs D : Z) (nb : nat) (s A eps : R) : R :=
  (eps / IZR D + INR n * sum_f_R0 (fun j => (INR n * IZR Bs) ^ j) d + s / IZR D * ((1 + / 2 ^ 51) ^ nb - 1) * A)%R.
