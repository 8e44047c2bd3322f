(** Vocabulary for the properties of ckks and fckks. *)
From Coq Require Import Reals.
From Flocq Require IEEE754.BinarySingleNaN.
From Verif Require Import Word Arith PolySpec PolyProofs Ring NTT RingOps RNSSpec RlweSpec GadgetSpec Gadget Frlwe Rlwe Float64 ScalingSpec Ckks.
Open Scope Z_scope.

(** The decryptor's key [sk] holds the secret s, at all levels (C31: every generated key does). *)
Definition secret (rQ : Ring) (L : nat) (sk : rows) (s : poly) : Prop := rns_ntt rQ L (maxLevel rQ) canon sk (pscale W s).

(** An element of the given level: its polynomials are in the NTT domain, have exactly level+1 rows, and the
    words of row i are below [B q_i] ([B = canon]: reduced).  At most seven polynomials (for decryption, see C29). *)
Definition ct_ok (rQ : Ring) (level : nat) (B : Z -> Z) (c : Ct) : Prop :=
  (level < length (rmods rQ))%nat /\ (0 < length (ctV c) <= 7)%nat /\ ctNTT c = true /\
  forall j, (j < length (ctV c))%nat -> length (comp c j) = S level /\ words rQ level B (comp c j).

(** Bounds at least the modulus with room for one more modulus in a word. *)
Definition fits (rQ : Ring) (B : Z -> Z) : Prop :=
  forall i, (i < length (rmods rQ))%nat -> mq (rmod rQ i) <= B (mq (rmod rQ i)) /\ B (mq (rmod rQ i)) + mq (rmod rQ i) <= W.
(** Words at most q (the code's negation maps 0 to q). *)
Definition closed (q : Z) : Z := q + 1.
(** Words below 6q, as written by the lazy transform. *)
Definition lazy (q : Z) : Z := 6 * q.

(** Decrypting gives M, reduced modulo the moduli of the level of the ciphertext, in either domain. *)
Definition decrypts (rQ : Ring) (L : nat) (sk : rows) (c : Ct) (M : poly) : Prop :=
  forall pt ptNTT pool, (ctLevel c < length pt)%nat ->
    rns_dom rQ L (ctLevel c) ptNTT (Decrypt rQ sk (ctV c) (ctNTT c) pt ptNTT pool) M.

(** A receiver of the given degree and level, with any content. *)
Definition shaped (degree level : nat) (c : Ct) : Prop :=
  length (ctV c) = S degree /\ ctNTT c = true /\ forall j, (j <= degree)%nat -> length (comp c j) = S level.

(** The noise of one key switching at levels levelQ and levelP: DQ bounds the products of the blocks of
    moduli, Be the errors of the key and Bs the secret. *)
Definition switch_noise (rQ rP : Ring) (levelQ levelP : nat) (DQ Be Bs : Z) (E : poly) : Prop :=
  let n := Z.of_nat (rN rQ) in let P := product (prefix rP levelP) in
  forall k, (k < rN rQ)%nat ->
    2 ^ 42 * (P * Z.abs (E k)) <= (2 ^ 42 + 1) * (Z.of_nat (ceil_div (levelQ + 1) (levelP + 1)) * (n * (DQ * Be)) + P * (1 + n * Bs)).

(** a + b X^(n/2); as X^(n/2) is a square root of -1, the Gaussian integer a + b i. *)
Definition pgauss (n : nat) (a b : Z) : poly := fun k => if Nat.eqb k 0 then a else if Nat.eqb k (n / 2) then b else 0.

(** The integer used for a constant x at a scale (C54 bounds its distance to the product). *)
Definition scaled (x scale : float64) : Z :=
  if f64_eq x f64_zero then 0 else if f64_lt x f64_zero then - scaled_abs x scale else scaled_abs x scale.
(** A float64 holding the integer k. *)
Definition float_int (x : float64) (k : Z) : Prop := BinarySingleNaN.is_finite x = true /\ BinarySingleNaN.B2R x = IZR k.
(** The integer by which an operand of scale b is multiplied to meet one of scale a. *)
Definition match_factor (a b : float64) : Z :=
  let f := f64_floor (f64_div a b) in if f64_lt b a && f64_lt (f64_of_Z 1) f then f64_trunc f else 1.

(** A switching key from s' to s for the levels levelK and levelP, with errors at most Be. *)
Definition swkey_ok (rQ rP : Ring) (L levelK levelP : nat) (key : swkey) (s s' : poly) (Be : Z) : Prop :=
  exists e, switching_key_ok rQ rP L levelK levelP (fst key) (snd key) e s s' /\
    forall i, (i < ceil_div (levelK + 1) (levelP + 1))%nat -> pbound (rN rQ) Be (e i).
(** DQ bounds the products of the blocks of levelP+1 moduli. *)
Definition blocks_below (rQ : Ring) (levelQ levelP : nat) (DQ : Z) : Prop :=
  forall i, (i < ceil_div (levelQ + 1) (levelP + 1))%nat -> product (block_of (levelP + 1) i (prefix rQ levelQ)) <= DQ.
(** The levels of a key: levelK for Q, levelP for P (at most 18 moduli, see C33). *)
Definition key_levels (rQ rP : Ring) (levelK levelP : nat) : Prop :=
  (levelK < length (rmods rQ))%nat /\ (levelP < length (rmods rP))%nat /\ (levelP < 18)%nat.

(** A key for the automorphism X -> X^g: it switches from s to the image of s under the inverse automorphism. *)
Definition rotation_key (rQ rP : Ring) (L levelK levelP : nat) (g : Z) (key : swkey) (s : poly) (Be : Z) : Prop :=
  exists h, 0 <= h /\ Z.odd h = true /\ (g * h) mod (2 * Z.of_nat (rN rQ)) = 1 /\
    swkey_ok rQ rP L levelK levelP key (pauto (rN rQ) (Z.to_nat h) s) s Be.

(** The scale after dividing, in turn, by the last nb moduli. *)
Definition rescaled_scale (r : Ring) (level nb : nat) (scale : float64) : float64 :=
  fold_left (fun x q => f64_div x (f64_of_Z q)) (last_moduli r level nb) scale.
(** The number of divisions: each of them leaves a scale of at least minScale/2, one more would not. *)
Definition rescale_count (r : Ring) (level : nat) (minScale scale : float64) (nb : nat) : Prop :=
  let half := f64_div minScale (f64_of_Z 2) in (nb <= level)%nat /\
  (forall i, (i < nb)%nat -> f64_le half (rescaled_scale r level (S i) scale) = true) /\
  f64_le half (rescaled_scale r level (S nb) scale) = false.

(** The real and imaginary parts of a constant. *)
Definition const_parts (c : const) : float64 * float64 :=
  match c with CComplex re im => (re, im) | CFloat x => (x, f64_zero) | CInt x => (f64_of_Z x, f64_zero) end.
(** The integer a is x times the scale, rounded, up to the accuracy of float64. *)
Definition near_product (x scale : float64) (a : Z) : Prop :=
  let v := (BinarySingleNaN.B2R x * BinarySingleNaN.B2R scale)%R in
  (Rabs (IZR a - v) <= / 2 + (Rabs v + 1) * / 2 ^ 51)%R.
(** x is a number and x times the scale is at most 2^63 in absolute value. *)
Definition in_range (x scale : float64) : Prop :=
  BinarySingleNaN.is_finite x = true /\ (Rabs (BinarySingleNaN.B2R x * BinarySingleNaN.B2R scale) <= IZR (2 ^ 63))%R.

(** [c] is the result of MulRelin, into a new ciphertext, on reduced ciphertexts of degree 1 and a proper key. *)
Definition relin_product (rQ rP : Ring) (L : nat) (sk : rows) (s : poly) (level : nat) (c : Ct) : Prop :=
  exists rlk levelK levelP Be c0 c1 scratch scale,
    secret rQ L sk s /\ key_levels rQ rP levelK levelP /\ (level <= levelK)%nat /\ swkey_ok rQ rP L levelK levelP rlk s (ppow (rN rQ) s 2) Be /\
    ct_ok rQ level canon c0 /\ ct_ok rQ level canon c1 /\ ctDegree c0 = 1%nat /\ ctDegree c1 = 1%nat /\
    MulRelin rQ rP levelP rlk false c0 c1 (NewCiphertext (rN rQ) 1 level scale) scratch = Some c.
