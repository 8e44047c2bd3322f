(** What the statements about the utilities of a ring speak of. *)
From Verif Require Import Word PolySpec Ring RingOps RingProofs RNSSpec.

(** A polynomial with a row of at least N words for every modulus of the ring. *)
Definition fits (r : Ring) (p : rows) : Prop :=
  (length (rmods r) <= length p)%nat /\ forall i, (i < length (rmods r))%nat -> (rN r <= length (nth i p []))%nat.

(** The evaluations of X in natural order: word j of a row is the value of X at psi^(2j+1). *)
Definition natural_row (L : nat) (m : modp) (B : Z) (row : list Z) (X : poly) : Prop :=
  (2 ^ L <= length row)%nat /\
  forall j, (j < 2 ^ L)%nat -> 0 <= nth j row 0 < B /\ eqm (mq m) (nth j row 0) (peval (2 ^ L) X (psi_of m ^ (2 * Z.of_nat j + 1))).

(** Words of 64 bits in the rows of a ring. *)
Definition word_rows (r : Ring) (p : rows) : Prop :=
  fits r p /\ forall i k, (i < length (rmods r))%nat -> (k < rN r)%nat -> 0 <= coeff p i k < W.

(** A polynomial with a row of exactly N words for every modulus of the ring. *)
Definition sized (r : Ring) (p : rows) : Prop :=
  (length (rmods r) <= length p)%nat /\ forall i, (i < length (rmods r))%nat -> length (nth i p []) = rN r.
