(** C82: which parameters are accepted; the parameter sets of the repository. *)
From Coq Require Import ZArith List Lia.
From Verif Require Import Word PolySpec Ring RNSSpec Float64 Codec Params Gadget GadgetSpec Frlwe FrlweSetup RlweSpec Rlwe Ckks CkksSpec FckksSpec DrawSpec FParams PubParams ParamsSpec PubSpec PubTotal PubProofs Primes.
From Verif Require PrimesEx.
Import ListNotations.
Local Open Scope Z_scope.

(** ** rlwe.NewParameters accepts exactly the admissible chains: those of distinct primes that are 1 modulo 2N (4N) ... *)
Theorem C82_accepted : forall logn q p hh sg ty, Forall word q -> Forall word p ->
  ((exists fuel P, NewParameters fuel logn q p hh sg ty = (P, None)) <-> admissible logn q p ty).
Proof. exact accepted_iff. Qed.
Print Assumptions C82_accepted.

(** ... whatever the number of iterations allowed to its loops, beyond some bound; the rings have the moduli and the degree asked for. *)
Theorem C82_parameters : forall logn q p hh sg ty, admissible logn q p ty ->
  exists P, (exists f0, forall fuel, (f0 <= fuel)%nat -> NewParameters fuel logn q p hh sg ty = (P, None)) /\ rings_ok P /\ logN P = logn /\ qi P = q /\ pi P = p /\ h P = hh /\ sigma P = sg /\ ringType P = ty.
Proof. exact new_parameters_total. Qed.
Print Assumptions C82_parameters.

(** ** The literals of ckks, frlwe and fckks: what is not set takes its default. *)
Theorem C82_ckks_literal : forall logn q p hh sg ty ls sc, admissible logn q p ty -> 0 <= ls <= degree_exp logn ty - 2 ->
  exists P, (exists f0, forall fuel, (f0 <= fuel)%nat -> Ckks_NewParametersFromLiteral fuel (mkCkksLit (mkLit logn (Some q) (Some p) None None sg hh ty) ls sc) = Ret (mkCkks P (slots_used logn ty ls) sc, None)) /\
    rings_ok P /\ logN P = logn /\ qi P = q /\ pi P = p /\ ringType P = ty /\
    h P = (if hh =? 0 then 2 ^ (logn - 1) else hh) /\ sigma P = (if f64_same sg (f64_of_Z 0) then DefaultSigma else sg).
Proof. exact ckks_total. Qed.
Print Assumptions C82_ckks_literal.

Theorem C82_frlwe_literal : forall logn q p t sg hh gamma, fast_admissible logn q p t ->
  exists P, (exists f0, forall fuel rfuel, (f0 <= rfuel)%nat -> Frlwe_NewParametersFromLiteral fuel rfuel (mkFLit (mkLit logn (Some q) (Some p) None None sg hh Standard) t gamma) = Some (Ret P)) /\
    rings_ok (fRlwe P) /\ moduli (fRingR P) = p ++ q /\ moduli (fRingT P) = t /\ fGamma P = gamma /\ logN (fRlwe P) = logn /\ qi (fRlwe P) = q /\ pi (fRlwe P) = p /\
    h (fRlwe P) = (if hh =? 0 then 2 ^ (logn - 1) else hh) /\ sigma (fRlwe P) = (if f64_same sg (f64_of_Z 0) then DefaultSigma else sg) /\
    exists p' f0, fast_rings P = Some p' /\ forall rfuel, (f0 <= rfuel)%nat -> NewFParams rfuel (2 ^ logn) q p t gamma = Some p'.
Proof. exact frlwe_total. Qed.
Print Assumptions C82_frlwe_literal.

Theorem C82_fckks_literal : forall logn q p t sg hh gamma ls sc, fast_admissible logn q p t -> 0 <= ls <= logn - 1 ->
  exists C F, (exists f0, forall rfuel, (f0 <= rfuel)%nat -> Fckks_NewParametersFromLiteral rfuel (mkFLit (mkLit logn (Some q) (Some p) None None sg hh Standard) t gamma) ls sc = Ret (C, F)) /\
    cRlwe C = fRlwe F /\ cLogSlots C = slots_used logn Standard ls /\ cScale C = sc /\
    exists p' f0, fast_rings F = Some p' /\ forall rfuel, (f0 <= rfuel)%nat -> NewFParams rfuel (2 ^ logn) q p t gamma = Some p'.
Proof. exact fckks_total. Qed.
Print Assumptions C82_fckks_literal.

(** Nothing else is accepted: these constructors return parameters exactly for the admissible literals, if the moduli of T are below 2^63. *)
Theorem C82_ckks_accepted : forall logn q p hh sg ty ls sc, Forall word q -> Forall word p ->
  ((exists fuel C, Ckks_NewParametersFromLiteral fuel (mkCkksLit (mkLit logn (Some q) (Some p) None None sg hh ty) ls sc) = Ret (C, None)) <-> admissible logn q p ty /\ 0 <= ls <= degree_exp logn ty - 2).
Proof. exact ckks_accepted. Qed.
Print Assumptions C82_ckks_accepted.

Theorem C82_frlwe_accepted : forall logn q p t sg hh gamma, Forall word q -> Forall word p -> Forall (fun x => x < 2 ^ 63) t -> p <> [] ->
  ((exists fuel rfuel P, Frlwe_NewParametersFromLiteral fuel rfuel (mkFLit (mkLit logn (Some q) (Some p) None None sg hh Standard) t gamma) = Some (Ret P)) <-> fast_admissible logn q p t).
Proof. exact frlwe_accepted. Qed.
Print Assumptions C82_frlwe_accepted.

Theorem C82_fckks_accepted : forall logn q p t sg hh gamma ls sc, Forall word q -> Forall word p -> Forall (fun x => x < 2 ^ 63) t -> p <> [] ->
  ((exists rfuel C F, Fckks_NewParametersFromLiteral rfuel (mkFLit (mkLit logn (Some q) (Some p) None None sg hh Standard) t gamma) ls sc = Ret (C, F)) <-> fast_admissible logn q p t /\ 0 <= ls <= logn - 1).
Proof. exact fckks_accepted. Qed.
Print Assumptions C82_fckks_accepted.

(** A literal of frlwe that gives the chains by their sizes, as its fields LogQ and LogP allow, never gives parameters: it panics, if it returns. *)
Theorem C82_sizes : forall fuel rfuel d lq lp, lQ (flRlwe d) = None -> lLogQ (flRlwe d) = Some lq -> lP (flRlwe d) = None -> lLogP (flRlwe d) = Some lp ->
  Frlwe_NewParametersFromLiteral fuel rfuel d = None \/ Frlwe_NewParametersFromLiteral fuel rfuel d = Some Codec.Panic.
Proof. exact sizes_panic. Qed.
Print Assumptions C82_sizes.

(** Sizes that rlwe.NewParametersFromLiteral accepts. *)
Theorem C82_sizes_refuted : exists fuel rfuel P, ParametersFromSizes fuel rfuel PrimesEx.shared_sizes = Some (Ret (P, None)) /\
  forall t gamma, Frlwe_NewParametersFromLiteral fuel rfuel (mkFLit PrimesEx.shared_sizes t gamma) = Some Codec.Panic.
Proof. exact sizes_case. Qed.
Print Assumptions C82_sizes_refuted.

(** ** Every default parameter set of ckks is accepted, with the degree, the moduli and the scale of its literal and QP of the size in its
    name; those with the standard ring meet the conditions of the theorems on encryption and key switching: blocks of Q are at most P. *)
Theorem C82_ckks_sets : forall s, In s ckks_sets -> exists P rQ rP,
  (exists f0, forall fuel, (f0 <= fuel)%nat -> Ckks_NewParametersFromLiteral fuel (ckks_literal s) = Ret (mkCkks P (sLogSlots s) (f64_of_Z (2 ^ sLogScale s)), None)) /\
  ringQ P = Some rQ /\ ringP P = Some rP /\ moduli rQ = sQ s /\ moduli rP = sP s /\ rN rQ = (2 ^ sLogN s)%nat /\ rN rP = (2 ^ sLogN s)%nat /\ h P = 2 ^ (Z.of_nat (sLogN s) - 1) /\ sigma P = DefaultSigma /\ ringType P = sType s /\
  1000 * product (sP s ++ sQ s) < 1001 * 2 ^ sLogQP s /\
  (sType s = Standard -> ring_pair rQ rP /\ key_levels rQ rP (maxLevel rQ) (maxLevel rP) /\ errors_fit rQ rP 19 /\
     forall level, (level < length (sQ s))%nat -> blocks_below rQ level (maxLevel rP) (product (sP s))).
Proof. exact ckks_sets_ok. Qed.
Print Assumptions C82_ckks_sets.

(** ** Every parameter set of the fast key switching is accepted and meets the conditions of the theorems on frlwe and fckks at every level:
    the auxiliary moduli T are large enough for the digits, errors up to 19 (sigma 3.2) fit. *)
Theorem C82_fast_sets : forall s, In s fast_sets -> let DQ := largest_block (length (sP s)) (sQ s) in exists p ks conv,
  fast_setup (sQ s) (sP s) (sT s) (sGamma s) p ks conv (sLogN s) /\ errors_fit (fpQ p) (fpP p) 19 /\
  (forall level, (level < length (sQ s))%nat -> blocks_below (fpQ p) level (maxLevel (fpP p)) DQ /\ FckksSpec.room (sQ s) (sP s) (sT s) (sGamma s) (rN (fpQ p)) level DQ) /\
  exists C F, (exists f0, forall rfuel, (f0 <= rfuel)%nat -> Fckks_NewParametersFromLiteral rfuel (fast_literal s) (sLogSlots s) (f64_of_Z (2 ^ sLogScale s)) = Ret (C, F)) /\ fast_rings F = Some p /\
    cRlwe C = fRlwe F /\ cLogSlots C = slots_used (Z.of_nat (sLogN s)) Standard (sLogSlots s) /\ cScale C = f64_of_Z (2 ^ sLogScale s).
Proof. exact fast_sets_ok. Qed.
Print Assumptions C82_fast_sets.

(** The sets: 20 of ckks, 3 of the fast key switching; the largest degree is 2^16 with 47 moduli. *)
Example C82_case : length ckks_sets = 20%nat /\ length fast_sets = 3%nat /\ In fckks_PN16QP1760 fast_sets /\ sLogN fckks_PN16QP1760 = 16%nat /\ length (sQ fckks_PN16QP1760) = 47%nat /\
  admissible 15 (sQ ckks_PN15QP880) (sP ckks_PN15QP880) Standard.
Proof.
  split; [reflexivity|]. split; [reflexivity|]. split; [cbn; tauto|]. split; [reflexivity|]. split; [reflexivity|].
  apply (set_admissible ckks_PN15QP880). apply (proj1 (forallb_forall _ _) sets_ok). unfold ckks_sets. cbn. tauto.
Qed.
(** The condition on T is close: with moduli T of one bit less it fails for PN16QP1760. *)
Example C82_close : let s := fckks_PN16QP1760 in
  product (sT s) < 2 ^ 4 * (5 * (Z.of_nat (ceil_div (length (sQ s)) (length (sP s))) * (2 ^ Z.of_nat (sLogN s) * (largest_block (length (sP s)) (sQ s) * largest_block (sGamma s) (sP s ++ sQ s))))).
Proof. reflexivity. Qed.
