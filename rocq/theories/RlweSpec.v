(** Vocabulary for the properties of rlwe. *)
From Verif Require Import Word Arith PolySpec Ring NTT RingOps RNSSpec Gadget GadgetSpec Frlwe.

(** The rings of a parameter set: same degree, disjoint moduli of at most 2^64/9 (60 bits). *)
Definition ring_pair (rQ rP : Ring) : Prop :=
  built_ring 9 rQ /\ built_ring 9 rP /\ rN rP = rN rQ /\ disjoint_moduli rQ rP.

(** The moduli 0..level of a ring. *)
Definition prefix (r : Ring) (level : nat) : list Z := firstn (S level) (moduli r).

(** The rows of one polynomial modulo Q and P, in the NTT domain. *)
Definition qp_ntt (rQ rP : Ring) (L levelQ levelP : nat) (B : Z -> Z) (p : rows * rows) (X : poly) : Prop :=
  rns_ntt rQ L levelQ B (fst p) X /\ rns_ntt rP L levelP B (snd p) X.

(** The rows of one polynomial in the NTT domain or as coefficients, reduced. *)
Definition rns_dom (r : Ring) (L level : nat) (isNTT : bool) (p : rows) (X : poly) : Prop :=
  if isNTT then rns_ntt r L level canon p X else rns_repr r level canon p X.

(** Coefficients below q_0/2 in absolute value and at most every p_i. *)
Definition small_poly (rQ rP : Ring) (levelP : nat) (X : poly) : Prop :=
  forall k, (k < rN rQ)%nat -> 2 * Z.abs (X k) < mq (rmod rQ 0) /\ forall i, (i <= levelP)%nat -> Z.abs (X k) <= mq (rmod rP i).

(** What a sampler of small polynomials returns: the words of row i are in [0, q_i], and the rows agree
    with an integer polynomial of small coefficients. *)
Definition sampled (rQ rP : Ring) (levelQ levelP : nat) (e : rows) (E : poly) : Prop :=
  rns_repr rQ levelQ (fun q => q + 1) e E /\ small_poly rQ rP levelP E.

(** (key0, key1), in the NTT domain and Montgomery form, is a switching key from s' to s with errors [e],
    one pair for each block of levelP+1 moduli of Q. *)
Definition switching_key_ok (rQ rP : Ring) (L levelQ levelP : nat) (key0 key1 : list (rows * rows)) (e : nat -> poly) (s s' : poly) : Prop :=
  let nb := ceil_div (levelQ + 1) (levelP + 1) in
  length key0 = nb /\ length key1 = nb /\
  exists b0 b1, (forall i, (i < nb)%nat -> qp_ntt rQ rP L levelQ levelP canon (nth i key0 ([], [])) (pscale W (b0 i)) /\
      qp_ntt rQ rP L levelQ levelP canon (nth i key1 ([], [])) (pscale W (b1 i))) /\
    gadget_key (rN rQ) (levelP + 1) nb (prefix rQ levelQ) (prefix rP levelP) b0 b1 e s s'.

(** The powers of a polynomial modulo X^N+1. *)
Fixpoint ppow (N : nat) (a : poly) (k : nat) : poly := match k with O => pone | S k' => pmul N (ppow N a k') a end.

(** The randomness of a switching key: for each digit an error from the Gaussian sampler and a uniform
    polynomial modulo Q and P. *)
Definition randomness_ok (rQ rP : Ring) (levelQ levelP : nat) (e : nat -> rows) (E : nat -> poly) (aQ aP : nat -> rows) : Prop :=
  forall i, (i < ceil_div (levelQ + 1) (levelP + 1))%nat ->
    sampled rQ rP levelQ levelP (e i) (E i) /\ words rQ levelQ canon (aQ i) /\ words rP levelP canon (aP i).

(** The noise F of a fresh encryption: p F = u e + e0 + e1 s - rho0 - rho1 s exactly, where p is the
    special modulus divided out, e the error of the public key, and rho0, rho1 the remainders of the divisions
    by p, in [0, p) up to 2^-42 p. *)
Definition fresh_noise (n : nat) (p : Z) (U e E0 E1 s rho0 rho1 F : poly) : Prop :=
  forall k, (k < n)%nat ->
    p * F k = padd (padd (pmul n U e) E0) (pmul n E1 s) k - rho0 k - pmul n rho1 s k /\
    - p < 2 ^ 42 * rho0 k /\ 2 ^ 42 * (rho0 k - p) < p /\ - p < 2 ^ 42 * rho1 k /\ 2 ^ 42 * (rho1 k - p) < p.
