(** Vocabulary for the parameters: which literals are accepted, what the constructors make of them. *)
From Coq Require Import ZArith Znumtheory List.
From Verif Require Import Word PolySpec Ring RNSSpec Float64 Params Gadget GadgetSpec Frlwe RlweSpec Rlwe Ckks CkksSpec FckksSpec DrawSpec FParams PubParams ParamsSpec.
Import ListNotations.
Local Open Scope Z_scope.

(** The moduli must be 1 modulo this power of 2: 2N, or 4N for the conjugate-invariant ring. *)
Definition degree_exp (logn ty : Z) : Z := logn + (if ty =? Standard then 1 else 2).
(** What the constructor of rlwe accepts. *)
Definition admissible (logn : Z) (q p : list Z) (ty : Z) : Prop :=
  4 <= logn <= 17 /\ (ty = Standard \/ ty = ConjugateInvariant) /\ (1 <= length q <= 100)%nat /\ (length p <= 100)%nat /\
  good_moduli (2 ^ degree_exp logn ty) (2 ^ 62) q /\ good_moduli (2 ^ degree_exp logn ty) (2 ^ 63) p.
(** The rings of the parameters. *)
Definition rings_ok (P : Params) : Prop :=
  (exists rQ, ringQ P = Some rQ /\ moduli rQ = qi P /\ Z.of_nat (rN rQ) = 2 ^ logN P /\ rNthRoot rQ = 2 ^ degree_exp (logN P) (ringType P)) /\
  (pi P = [] /\ ringP P = None \/ exists rP, ringP P = Some rP /\ moduli rP = pi P /\ Z.of_nat (rN rP) = 2 ^ logN P /\ rNthRoot rP = 2 ^ degree_exp (logN P) (ringType P)).

(** What the constructor of frlwe accepts: the moduli of P and Q are distinct, too. *)
Definition fast_admissible (logn : Z) (q p t : list Z) : Prop :=
  admissible logn q p Standard /\ p <> [] /\ NoDup (p ++ q) /\ t <> [] /\ good_moduli (2 ^ degree_exp logn Standard) (2 ^ 63) t.
(** The number of slots that is used: left unset (0), the largest one. *)
Definition slots_used (logn ty ls : Z) : Z := if ls =? 0 then (if ty =? Standard then logn - 1 else logn) else ls.

(** The largest product of a block of [size] consecutive moduli. *)
Definition largest_block (size : nat) (ms : list Z) : Z :=
  fold_right Z.max 0 (map (fun i => product (block_of size i ms)) (seq 0 (ceil_div (length ms) size))).
