(** C28 and C62: the generation of NTT primes and of moduli chains. *)
From Coq Require Import Znumtheory Sorted.
From Flocq Require Import IEEE754.BinarySingleNaN.
From Verif Require Import Word Ring Codec Params Primes PrimesSpec PrimesTop ModuliProofs PrimesEx.

(** ** C28 *)

(** GenerateNTTPrimesQ returns the n primes of the class of 2^logQ + 1 modulo R nearest to 2^logQ + 1, itself excluded, the
    greater first at equal distance; it panics exactly when there are not n of them in the range of a word (or n < 1). *)
Theorem C28_primes_Q : forall logQ R n, 0 <= logQ <= 63 -> 0 < R < W ->
  (forall l, (exists fuel, GenerateNTTPrimesQ fuel logQ R n = Some (Ret l)) <-> first_of (class_prime (2 ^ logQ + 1) R) (nearer (2 ^ logQ + 1)) n l) /\
  ((exists fuel, GenerateNTTPrimesQ fuel logQ R n = Some Panic) <-> ~ exists l, first_of (class_prime (2 ^ logQ + 1) R) (nearer (2 ^ logQ + 1)) n l).
Proof. exact Q_iff. Qed.
Print Assumptions C28_primes_Q.

(** GenerateNTTPrimesP returns the n greatest primes of that class below 2^logP + 1. *)
Theorem C28_primes_P : forall logP R n, 0 <= logP <= 63 -> 0 < R < W ->
  (forall l, (exists fuel, GenerateNTTPrimesP fuel logP R n = Some (Ret l)) <-> first_of (lower_prime (2 ^ logP + 1) R) above n l) /\
  ((exists fuel, GenerateNTTPrimesP fuel logP R n = Some Panic) <-> ~ exists l, first_of (lower_prime (2 ^ logP + 1) R) above n l).
Proof. exact P_iff. Qed.
Print Assumptions C28_primes_P.

(** GenerateNTTPrimes uses the second for 61 bits, and panics above. *)
Theorem C28_dispatch : forall fuel logQ R n, GenerateNTTPrimes fuel logQ R n =
  if 61 <? logQ then Some Panic else if logQ =? 61 then GenerateNTTPrimesP fuel 61 R n else GenerateNTTPrimesQ fuel logQ R n.
Proof. exact gen_dispatch. Qed.
Print Assumptions C28_dispatch.

(** It always ends, and not with an error. *)
Theorem C28_ends : forall s R n, 0 <= s <= 61 -> 0 < R < W -> exists fuel, GenerateNTTPrimes fuel s R n <> None /\ GenerateNTTPrimes fuel s R n <> Some Fail.
Proof. exact gen_total. Qed.
Print Assumptions C28_ends.

(** For a root order 2^e with e <= logQ the result is n distinct primes that are 1 modulo 2^e. *)
Theorem C28_friendly : forall logQ e n l, 1 <= e <= logQ -> logQ <= 61 -> (exists fuel, GenerateNTTPrimes fuel logQ (2 ^ e) n = Some (Ret l)) ->
  Z.of_nat (length l) = n /\ NoDup l /\ forall p, In p l -> prime p /\ p mod 2 ^ e = 1 /\ p < W /\ (logQ = 61 -> p < 2 ^ 61).
Proof. exact gen_friendly. Qed.
Print Assumptions C28_friendly.

(** NextNTTPrime ends; it returns the next prime of the class if that is below 2^61, and an error if there is none. *)
Theorem C28_next : forall q e, 0 <= e <= 61 -> q mod 2 ^ e = 1 mod 2 ^ e -> 0 <= q < 2 ^ 61 ->
  (exists fuel, NextNTTPrime fuel q (2 ^ e) <> None) /\
  (forall p, (exists fuel, NextNTTPrime fuel q (2 ^ e) = Some (Ret p)) <-> follows q (2 ^ e) p /\ p < 2 ^ 61) /\
  ((exists fuel, NextNTTPrime fuel q (2 ^ e) = Some Fail) <-> forall c, q < c < 2 ^ 61 -> (2 ^ e | c - q) -> ~ prime c) /\
  (forall fuel, NextNTTPrime fuel q (2 ^ e) <> Some Panic).
Proof. exact next_spec. Qed.
Print Assumptions C28_next.

(** PreviousNTTPrime returns the previous prime of the class if there is one ... *)
Theorem C28_previous : forall q R p, 0 < R < W -> 0 <= q < W -> precedes q R p -> exists fuel, PreviousNTTPrime fuel q R = Some (Ret p).
Proof. exact prev_finds. Qed.
Print Assumptions C28_previous.

Theorem C28_previous_unique : forall q R f1 f2 v1 v2, PreviousNTTPrime f1 q R = Some v1 -> PreviousNTTPrime f2 q R = Some v2 -> v1 = v2.
Proof. exact prev_det. Qed.
Print Assumptions C28_previous_unique.

(** ... but its error is returned only if q itself is below R: else the search goes on below zero, ... *)
Theorem C28_previous_error : forall q R, 0 < R < W -> 0 <= q < W -> ((exists fuel, PreviousNTTPrime fuel q R = Some Fail) <-> q < R).
Proof. exact prev_error. Qed.
Print Assumptions C28_previous_error.

(** ... and may return a prime of 64 bits above q. *)
Theorem C28_previous_refuted : exists q R p fuel, 0 <= q < 2 ^ 61 /\ q mod R = 1 /\ (forall c, 0 <= c < q -> (R | q - c) -> ~ prime c) /\
  PreviousNTTPrime fuel q R = Some (Ret p) /\ q < p /\ 2 ^ 63 < p.
Proof. exact previous_wraps. Qed.
Print Assumptions C28_previous_refuted.

(** Not "all the appropriate primes with the best deviation": 2^logQ + 1 itself is passed over. *)
Theorem C28_centre_refuted : exists logQ R n fuel l, 1 <= logQ <= 60 /\ (R | 2 ^ logQ) /\ GenerateNTTPrimes fuel logQ R n = Some (Ret l) /\
  prime (2 ^ logQ + 1) /\ ~ In (2 ^ logQ + 1) l.
Proof. exact centre_skipped. Qed.
Print Assumptions C28_centre_refuted.

(** logQ is not the size of the primes: they may have another bit length than logQ and logQ + 1. *)
Theorem C28_size_refuted : exists logQ R n fuel l p, 1 <= logQ <= 60 /\ (R | 2 ^ logQ) /\ GenerateNTTPrimes fuel logQ R n = Some (Ret l) /\
  In p l /\ Len64 p <> logQ /\ Len64 p <> logQ + 1.
Proof. exact size_missed. Qed.
Print Assumptions C28_size_refuted.

Example C28_example_Q : GenerateNTTPrimes 20 16 32 5 = Some (Ret [65633; 65729; 65761; 65921; 65089]).
Proof. vm_compute. reflexivity. Qed.
Example C28_example_P : GenerateNTTPrimesP 20 8 32 2 = Some (Ret [193; 97]).
Proof. vm_compute. reflexivity. Qed.
Example C28_example_none : GenerateNTTPrimesP 20 8 32 3 = Some Panic.
Proof. vm_compute. reflexivity. Qed.
Example C28_example_next : NextNTTPrime 20 97 32 = Some (Ret 193).
Proof. vm_compute. reflexivity. Qed.
Example C28_example_previous : PreviousNTTPrime 20 193 32 = Some (Ret 97).
Proof. vm_compute. reflexivity. Qed.

(** ** C62 *)

(** GenModuli returns (q, p) exactly when the sizes are valid and the entries of each size s, in order, are the primes chosen
    for s; there are as many as s is asked for. *)
Theorem C62_moduli : forall logn logQ logP q p, (exists fuel, GenModuli fuel logn logQ logP = Some (Ret (q, p))) <->
  valid_sizes logn logQ logP /\ length q = length logQ /\ length p = length logP /\
  forall s, In s (logQ ++ logP) -> chosen s (2 ^ (logn + 1)) (count s (logQ ++ logP)) (entries s (logQ ++ logP) (q ++ p)).
Proof. exact moduli_iff. Qed.
Print Assumptions C62_moduli.

Theorem C62_error : forall logn logQ logP, (exists fuel, GenModuli fuel logn logQ logP = Some Fail) <-> ~ valid_sizes logn logQ logP.
Proof. exact moduli_error. Qed.
Print Assumptions C62_error.

(** If the sizes are above logN, each modulus is a prime that is 1 modulo 2N, and moduli of equal size differ. *)
Theorem C62_friendly : forall logn logQ logP q p, (exists fuel, GenModuli fuel logn logQ logP = Some (Ret (q, p))) ->
  (forall s, In s (logQ ++ logP) -> logn + 1 <= s) -> forall i, (i < length (logQ ++ logP))%nat ->
  prime (nth i (q ++ p) 0) /\ nth i (q ++ p) 0 mod 2 ^ (logn + 1) = 1 /\ nth i (q ++ p) 0 < W /\
  forall j, (j < i)%nat -> nth j (logQ ++ logP) 0 = nth i (logQ ++ logP) 0 -> nth j (q ++ p) 0 <> nth i (q ++ p) 0.
Proof. exact moduli_friendly. Qed.
Print Assumptions C62_friendly.

(** Moduli of different sizes can be the same prime, in one chain and across the chains. *)
Theorem C62_distinct_refuted : exists fuel q p, GenModuli fuel 4 [5; 7] [6] = Some (Ret (q, p)) /\ valid_sizes 4 [5; 7] [6] /\
  (forall s, In s [5; 7; 6] -> 4 + 1 <= s) /\ nth 0 q 0 = nth 1 q 0 /\ nth 0 q 0 = nth 0 p 0.
Proof. exact collision. Qed.
Print Assumptions C62_distinct_refuted.

(** A size of at most logN gives a modulus without the needed roots of unity. *)
Theorem C62_any_size_refuted : exists fuel q, GenModuli fuel 4 [4] [] = Some (Ret (q, [])) /\ valid_sizes 4 [4] [] /\ nth 0 q 0 mod 2 ^ (4 + 1) <> 1.
Proof. exact unfriendly. Qed.
Print Assumptions C62_any_size_refuted.

(** Parameters given by sizes can share a prime between Q and P, without an error. *)
Theorem C62_shared_prime_refuted : exists fuel rfuel P, ParametersFromSizes fuel rfuel shared_sizes = Some (Ret (P, None)) /\ qi P = [97] /\ pi P = [97].
Proof. exact sizes_share. Qed.
Print Assumptions C62_shared_prime_refuted.

Example C62_example : exists fuel, GenModuli fuel 4 [8; 9; 8] [10] = Some (Ret ([193; 577; 353], [929])).
Proof. exact moduli_example. Qed.
