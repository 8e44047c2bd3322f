(** Vocabulary for sets of rotation keys. *)
From Verif Require Import Word Arith PolySpec Ring NTT RingOps RNSSpec Automorphism Gadget GadgetSpec Frlwe RlweSpec Rlwe Float64 Ckks CkksSpec RotKeys.
Open Scope Z_scope.

(** The image of M under the rotation by k. *)
Definition rot (rQ : Ring) (k : Z) (M : poly) : poly := pauto (rN rQ) (Z.to_nat (GaloisElementForColumnRotationBy rQ k)) M.
(** The sum of the rotations by 0, batch, ..., (n-1) batch. *)
Definition sum_rotations (rQ : Ring) (batch : Z) (n : nat) (M : poly) : poly := psum n (fun t => rot rQ (Z.of_nat t * batch) M).

(** The [count] calls drew small errors, at most Be, and words of the uniform polynomials. *)
Definition draws_ok (rQ rP : Ring) (Be : Z) (count : nat) (d : nat -> draw) : Prop :=
  forall i, (i < count)%nat -> exists E, randomness_ok rQ rP (maxLevel rQ) (maxLevel rP) (drE (d i)) E (drQ (d i)) (drP (d i)) /\
    forall j, (j < ceil_div (maxLevel rQ + 1) (maxLevel rP + 1))%nat -> pbound (rN rQ) Be (E j).

(** The noise of [count] key switchings. *)
Definition switch_noises (rQ rP : Ring) (levelQ levelP : nat) (count : Z) (DQ Be Bs : Z) (E : poly) : Prop :=
  let n := Z.of_nat (rN rQ) in let P := product (prefix rP levelP) in
  forall k, (k < rN rQ)%nat ->
    2 ^ 42 * (P * Z.abs (E k)) <= count * ((2 ^ 42 + 1) * (Z.of_nat (ceil_div (levelQ + 1) (levelP + 1)) * (n * (DQ * Be)) + P * (1 + n * Bs))).

(** What can be computed from M with additions and rotations taken from the list: the results so far, after [count] rotations. *)
Inductive computed (rQ : Ring) (rots : list Z) (M : poly) : nat -> list poly -> Prop :=
  | computed_start : computed rQ rots M 0 [M]
  | computed_add c l x y : computed rQ rots M c l -> In x l -> In y l -> computed rQ rots M c (padd x y :: l)
  | computed_rot c l x k : computed rQ rots M c l -> In x l -> In k rots -> computed rQ rots M (S c) (rot rQ k x :: l).
(** The polynomial X, up to multiples of any modulus, is computed with at most [count] rotations of the list. *)
Definition computes (rQ : Ring) (rots : list Z) (M : poly) (count : nat) (X : poly) : Prop :=
  exists c l Y, computed rQ rots M c l /\ (c <= count)%nat /\ In Y l /\ forall q, peq (rN rQ) q Y X.

(** The program: add to the ciphertext its rotation by 2^i, for i from [i] on, [count] times.  Scratch and pools are those met at
    each step. *)
Fixpoint fold_rotations (rQ rP : Ring) (rtks : Z -> option swkey) (count i : nat) (c : Ct) (s : nat -> Scratch) (pool : nat -> Ct) : option Ct :=
  match count with
  | O => Some c
  | S m =>
      match RotateNew rQ rP (maxLevel rP) rtks c (2 ^ Z.of_nat i) (s i) with
      | None => None
      | Some r => match AddNew rQ c r (pool i) with None => None | Some c' => fold_rotations rQ rP rtks m (S i) c' s pool end
      end
  end.
