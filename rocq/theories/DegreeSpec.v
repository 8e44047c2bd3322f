(** Rings of different degrees on the same moduli. *)
From Verif Require Import Word PolySpec Ring RingOps RNSSpec EncSpec RlweSpec.
Local Open Scope Z_scope.

(** The coefficients of X^0, X^gap, X^(2 gap), ...: for p = sum over r < gap of X^r p_r(X^gap) this is p_0. *)
Definition deflate (gap : nat) (p : poly) : poly := fun k => p (k * gap)%nat.

(** Two rings of the library whose degrees are 2^l <= 2^L and whose first level+1 moduli are the same. *)
Definition nested (c : Z) (rS rL : Ring) (l L level : nat) : Prop :=
  built_ring c rS /\ built_ring c rL /\ rN rS = (2 ^ l)%nat /\ rN rL = (2 ^ L)%nat /\ (l <= L)%nat /\
  (level < length (rmods rS))%nat /\ (level < length (rmods rL))%nat /\
  forall i, (i <= level)%nat -> mq (rmod rS i) = mq (rmod rL i).

(** A polynomial with exactly the rows 0..level, each of n words. *)
Definition sized (level n : nat) (p : rows) : Prop := length p = S level /\ forall i, (i <= level)%nat -> length (nth i p []) = n.

(** The polynomials of a ciphertext, each with exactly the rows 0..level, in the NTT domain or as coefficients. *)
Definition ct_dom (r : Ring) (L level : nat) (isNTT : bool) (ct : list rows) (C : nat -> poly) : Prop :=
  (0 < length ct)%nat /\ forall j, (j < length ct)%nat -> length (nth j ct []) = S level /\
    if isNTT then rns_ntt r L level canon (nth j ct []) (C j) else rns_repr r level canon (nth j ct []) (C j).

(** c_0 + c_1 s + ... + c_(d-1) s^(d-1). *)
Definition phase (n d : nat) (C : nat -> poly) (s : poly) : poly := psum d (fun i => pmul n (C i) (ppow n s i)).
