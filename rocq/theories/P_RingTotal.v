(** C81: the construction of a ring: factors, primitive roots, NewRing. *)
From Coq Require Import Znumtheory.
From Verif Require Import Word Arith ModRed SmallPrimes Ring RNSSpec RingTotal RingTotalEx.
Local Open Scope Z_scope.

(** ** NewRing succeeds for every list of distinct primes congruent to 1 modulo 2N below 2^63, whatever the order; [f0] iterations of each loop suffice. *)
Theorem C81_new_ring : forall k ms, (4 <= k)%nat -> ring_moduli k ms ->
  exists r, moduli r = ms /\ rN r = (2 ^ k)%nat /\ exists f0, forall fuel, (f0 <= fuel)%nat -> NewRing fuel (2 ^ Z.of_nat k) ms = inl r.
Proof. exact new_ring_total. Qed.
Print Assumptions C81_new_ring.

(** ** getFactors: the primes of the table that divide n, then the cofactor, if it is not 1.  Pollard's rho finds nothing: two iterations. *)
Theorem C81_factors : forall fuel n, (2 <= fuel)%nat -> 1 < n -> 2 * n <= W ->
  getFactors fuel n = Some (filter (fun p => n mod p =? 0) smallPrimes ++ (if rest_of n =? 1 then [] else [rest_of n])).
Proof. exact factors_spec. Qed.
Print Assumptions C81_factors.

(** The cofactor: what remains of n without the primes of the table. *)
Theorem C81_cofactor : forall n, 0 < n < 2 ^ 64 -> 0 < rest_of n /\ (forall p, In p smallPrimes -> ~ (p | rest_of n)) /\
  exists s, n = rest_of n * s /\ forall r, prime r -> (r | s) -> In r smallPrimes.
Proof. exact rest_of_spec. Qed.
Print Assumptions C81_cofactor.

(** The table holds distinct primes. *)
Theorem C81_table : NoDup smallPrimes /\ forall p, In p smallPrimes -> prime p.
Proof. exact (conj smallPrimes_nodup smallPrimes_prime). Qed.
Print Assumptions C81_table.

(** So the factors need not be prime, as the comment of getFactors says they are. *)
Theorem C81_factors_refuted : exists n l f, getFactors 2 n = Some l /\ In f l /\ ~ prime f.
Proof. exact composite_factor. Qed.
Print Assumptions C81_factors_refuted.

(** ** primitiveRoot terminates for every prime, with a g that is no d-th power residue for any factor d in the list. *)
Theorem C81_primitive_root : forall q, prime q -> 5 <= q -> 2 * q <= W -> exists g, 3 <= g < q /\
  (forall fuel, (Z.to_nat q <= fuel)%nat -> primitiveRoot fuel q = Some g) /\ forall d, In d (factors_of (q - 1)) -> g ^ ((q - 1) / d) mod q <> 1.
Proof. exact primitive_root_spec. Qed.
Print Assumptions C81_primitive_root.

(** It generates the multiplicative group if the cofactor of q - 1 is 1 or prime ... *)
Theorem C81_generator : forall q, prime q -> 5 <= q -> 2 * q <= W -> rest_of (q - 1) = 1 \/ prime (rest_of (q - 1)) ->
  exists g, (forall fuel, (Z.to_nat q <= fuel)%nat -> primitiveRoot fuel q = Some g) /\ forall k, 0 <= k -> g ^ k mod q = 1 -> (q - 1 | k).
Proof. exact generator_spec. Qed.
Print Assumptions C81_generator.

(** ... and need not otherwise. *)
Theorem C81_generator_refuted : exists q g k, prime q /\ q mod 2 ^ 5 = 1 /\ 2 * q <= W /\
  (forall fuel, (2 <= fuel)%nat -> primitiveRoot fuel q = Some g) /\ 0 < k < q - 1 /\ g ^ k mod q = 1.
Proof. exact not_generator. Qed.
Print Assumptions C81_generator_refuted.

(** Degree 16, moduli 97 and 193; and the modulus of the refutation, which makes a ring all the same. *)
Example C81_case : ring_moduli 4 [97; 193] /\ ring_moduli 4 [odd_q] /\ rest_of 96 = 1 /\ getFactors 2 96 = Some [2; 3] /\ primitiveRoot 200 97 = Some 5.
Proof. exact ring_case. Qed.
