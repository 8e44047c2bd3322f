(** Vocabulary for ciphertexts modulo QP. *)
From Verif Require Import Word Arith PolySpec Ring NTT RingOps RNSSpec Automorphism Gadget GadgetSpec Frlwe RlweSpec Rlwe Float64 Ckks CkksSpec Lazy.

(** The pair encrypts P M under s with error F, modulo every modulus of Q up to levelQ and every modulus of P: c0 + c1 s = P M + F. *)
Definition lazy_ct (rQ rP : Ring) (L levelQ levelP : nat) (x : qp_pair) (s M F : poly) : Prop :=
  exists C0 C1, qp_ntt rQ rP L levelQ levelP canon (fst x) C0 /\ qp_ntt rQ rP L levelQ levelP canon (snd x) C1 /\
    forall q, In q (prefix rQ levelQ ++ prefix rP levelP) ->
      peq (rN rQ) q (padd C0 (pmul (rN rQ) C1 s)) (padd (pscale (product (prefix rP levelP)) M) F).

(** The rows that a caller gets from new polynomials. *)
Definition pair_rows (levelQ levelP : nat) (x : qp_pair) : Prop :=
  length (fst (fst x)) = S levelQ /\ length (fst (snd x)) = S levelQ /\ length (snd (fst x)) = S levelP /\ length (snd (snd x)) = S levelP.

(** The error of [count] key switchings that are not divided by P: each is a sum of nb products of a digit (at most DQ, up to 2^-42)
    and an error of the key (at most Be). *)
Definition lazy_noise (rQ : Ring) (levelQ levelP count : nat) (DQ Be : Z) (F : poly) : Prop :=
  forall k, (k < rN rQ)%nat ->
    2 ^ 42 * Z.abs (F k) <= (2 ^ 42 + 1) * (Z.of_nat count * (Z.of_nat (ceil_div (levelQ + 1) (levelP + 1)) * (Z.of_nat (rN rQ) * (DQ * Be)))).

(** The error after [count] of them are added and divided once by P. *)
Definition summed_noise (rQ rP : Ring) (levelQ levelP count : nat) (DQ Be Bs : Z) (E : poly) : Prop :=
  let n := Z.of_nat (rN rQ) in let P := product (prefix rP levelP) in
  forall k, (k < rN rQ)%nat ->
    2 ^ 42 * (P * Z.abs (E k)) <= (2 ^ 42 + 1) * (Z.of_nat count * (Z.of_nat (ceil_div (levelQ + 1) (levelP + 1)) * (n * (DQ * Be))) + P * (1 + n * Bs)).

(** The sum of the images of M under the rotations. *)
Definition rotations_sum (rQ : Ring) (ks : list Z) (M : poly) : poly :=
  fold_right (fun k acc => padd (pauto (rN rQ) (Z.to_nat (GaloisElementForColumnRotationBy rQ k)) M) acc) pzero ks.
