(** What the words of a conjugate-invariant polynomial stand for. *)
From Verif Require Import Word PolySpec Ring RingOps RNSSpec.

(** c_0 + sum over 1 <= j < N of c_j (X^j + X^-j), as a polynomial of Z[X]/(X^2N+1), where X^-j = - X^(2N-j). *)
Definition ci_poly (N : nat) (c : poly) : poly := fun k =>
  if Nat.ltb k N then c k else if Nat.eqb k N then 0 else - c (2 * N - k)%nat.

(** p(X) + p(X^-1), compressed. *)
Definition ci_trace (N : nat) (p : poly) : poly := fun k =>
  if Nat.eqb k 0 then 2 * p O else p k - p (2 * N - k)%nat.

(** A conjugate-invariant ring the library built, with every modulus q such that c*q <= 2^64. *)
Definition built_ci (c : Z) (r : Ring) : Prop :=
  exists fuel N ms, NewRingConjugateInvariant fuel N ms = inl r /\ N <= 2 ^ 60 /\ forall q, In q ms -> c * q <= W.

(** A conjugate-invariant ring of degree N and the standard ring of degree 2N on the same moduli, both built by the library. *)
Definition paired (c : Z) (rc rs : Ring) : Prop :=
  exists f1 f2 N ms, NewRingConjugateInvariant f1 N ms = inl rc /\ NewRing f2 (2 * N) ms = inl rs /\
    N <= 2 ^ 59 /\ forall q, In q ms -> c * q <= W.
