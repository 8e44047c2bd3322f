(** What it means for rows of words to represent integer polynomials. *)
From Verif Require Import Word PolySpec Ring RingOps RingProofs.

(** Coefficient k of row i. *)
Definition coeff (p : rows) (i k : nat) : Z := nth k (nth i p []) 0.

(** Reversal of the L-bit binary representation. *)
Definition bitrev (L i : nat) : nat :=
  Z.to_nat (bigsum L (fun b => if Nat.testbit i b then 2 ^ Z.of_nat (L - 1 - b) else 0)).

(** A row of N words below B that agrees modulo q with the integers X 0, ..., X (N-1). *)
Definition row_repr (N : nat) (q B : Z) (row : list Z) (X : nat -> Z) : Prop :=
  length row = N /\ forall k, (k < N)%nat -> 0 <= nth k row 0 < B /\ eqm q (nth k row 0) (X k).

(** The i-th evaluation point of a modulus of a ring of degree 2^L: an odd power
    of the root stored in the ring (in Montgomery form, in PsiMont). *)
Definition pt (m : modp) (L i : nat) : Z := psi_of m ^ (2 * Z.of_nat (bitrev L i) + 1).

(** The values of X at the N = 2^L evaluation points. *)
Definition values (m : modp) (L : nat) (X : poly) : nat -> Z := fun i => peval (2 ^ L) X (pt m L i).

(** A row in the NTT domain. *)
Definition ntt_repr (L : nat) (m : modp) (B : Z) (row : list Z) (X : poly) : Prop :=
  row_repr (2 ^ L) (mq m) B row (values m L X).

(** Rows 0..level represent X, with words below [B q_i]. *)
Definition rns_repr (r : Ring) (level : nat) (B : Z -> Z) (p : rows) (X : poly) : Prop :=
  (level < length (rmods r))%nat /\ (level < length p)%nat /\
  forall i, (i <= level)%nat -> row_repr (rN r) (mq (rmod r i)) (B (mq (rmod r i))) (nth i p []) X.

(** The same in the NTT domain. *)
Definition rns_ntt (r : Ring) (L level : nat) (B : Z -> Z) (p : rows) (X : poly) : Prop :=
  (level < length (rmods r))%nat /\ (level < length p)%nat /\
  forall i, (i <= level)%nat -> ntt_repr L (rmod r i) (B (mq (rmod r i))) (nth i p []) X.

(** Canonical words. *)
Definition canon (q : Z) : Z := q.

(** A ring the library built, with every modulus q small enough that c*q <= 2^64. *)
Definition built_ring (c : Z) (r : Ring) : Prop :=
  exists fuel N ms, NewRing fuel N ms = inl r /\ N <= 2 ^ 60 /\ forall q, In q ms -> c * q <= W.

(** Rows 0..level are present, have N words, and row i's words are below [B q_i]. *)
Definition words (r : Ring) (level : nat) (B : Z -> Z) (p : rows) : Prop :=
  (level < length p)%nat /\
  forall i, (i <= level)%nat -> length (nth i p []) = rN r /\
    forall k, (k < rN r)%nat -> 0 <= coeff p i k < B (mq (rmod r i)).

(** A destination whose rows above [level] are untouched (and which keeps its number of rows,
    provided it had enough). *)
Definition kept (level : nat) (old new : rows) : Prop :=
  length new = Nat.max (S level) (length old) /\ forall i, (level < i)%nat -> nth i new [] = nth i old [].

(** The product of the first level+1 moduli of a ring, and their sum. *)
Definition lprod (r : Ring) (level : nat) : Z := fold_right Z.mul 1 (firstn (S level) (moduli r)).
Definition lsum (r : Ring) (level : nat) : Z := bigsum (S level) (fun i => mq (rmod r i)).

(** [x'] is congruent to x modulo Q and lies in [0,Q) up to an error of 2^-42 Q. *)
Definition lift_of (Q x x' : Z) : Prop :=
  eqm Q x' x /\ - Q < 2 ^ 42 * x' /\ 2 ^ 42 * (x' - Q) < Q.

(** [d] is the floor of a/P up to one unit, and exactly the floor when a is at least 2^-42 P away
    from the multiples of P. *)
Definition quotient_of (P a d : Z) : Prop :=
  -1 <= d - a / P <= 1 /\ (P <= 2 ^ 42 * (a mod P) -> P <= 2 ^ 42 * (P - a mod P) -> d = a / P).

Definition disjoint_moduli (r1 r2 : Ring) : Prop := forall q, In q (moduli r1) -> ~ In q (moduli r2).

(** Product and sum of the moduli lo..hi. *)
Definition block_prod (r : Ring) (lo hi : nat) : Z := fold_right Z.mul 1 (map (fun i => mq (rmod r i)) (seq lo (S hi - lo))).
Definition block_sum (r : Ring) (lo hi : nat) : Z := bigsum (S hi - lo) (fun i => mq (rmod r (lo + i))).
