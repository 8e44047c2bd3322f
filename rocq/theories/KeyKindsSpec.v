(** Vocabulary for the kinds of secret keys. *)
From Verif Require Import Word PolySpec Ring RingOps RNSSpec Codec Sampler SamplerSpec Gadget Rlwe RlweSpec Ckks CkksSpec Draw DrawSpec KeyKinds.

(** What each kind of secret is: exactly h coefficients 1 or -1; Gaussian, at most B; each coefficient -1, 0 or 1; exactly hw coefficients 1 or -1. *)
Definition of_kind (N h : nat) (B : Z) (k : kind) (s : poly) : Prop :=
  match k with
  | Plain => ternary N h s
  | Gaussian => forall i, Z.abs (s i) <= B
  | Distrib _ _ => forall i, -1 <= s i <= 1
  | HammingWeight hw _ => ternary N hw s
  end.
(** The size of a secret of the kind. *)
Definition kind_size (B : Z) (k : kind) : Z := match k with Gaussian => B | _ => 1 end.
(** The kinds with a generator of their own. *)
Definition own_generator (k : kind) : Prop := match k with Distrib _ _ | HammingWeight _ _ => True | _ => False end.
(** The samplers after a key of the kind: as before if it has its own generator; the weight of the ternary sampler is cut to N once it has been used. *)
Definition kind_weight (N h : nat) (k : kind) : nat := match k with Plain => Nat.min h N | _ => h end.
Definition can_panic (k : kind) : Prop := match k with Distrib _ _ => True | _ => False end.

(** Errors up to B can be represented modulo Q. *)
Definition errors_fit_Q (rQ : Ring) (B : Z) : Prop := forall i, (i < length (rmods rQ))%nat -> B < mq (rmod rQ i).
(** A public key without special moduli: an encryption of 0 under s, with an error of at most Be. *)
Definition public_key_Q (rQ : Ring) (L : nat) (pk : rows * rows) (s : poly) (Be : Z) : Prop :=
  exists b0 b1 e, rns_ntt rQ L (maxLevel rQ) canon (fst pk) b0 /\ rns_ntt rQ L (maxLevel rQ) canon (snd pk) b1 /\
    (forall q, peq (rN rQ) q (padd b0 (pmul (rN rQ) b1 s)) e) /\ pbound (rN rQ) Be e.
