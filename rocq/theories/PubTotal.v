(** Which parameters are accepted: the constructors succeed on every admissible chain. *)
From Coq Require Import ZArith Znumtheory List Lia Bool Arith.
From Verif Require Import Word Arith ModRed PolySpec Ring RingProofs RNSSpec Float64 Codec Params ParamsSpec ParamsProofs Primes Frlwe FrlweSetup FrlweTop FckksSpec RingTotal FParams PubSpec.
From Verif Require PrimesEx.
Import ListNotations.
Local Open Scope Z_scope.

(** The ring of degree 2^k with a primitive root of order 2^(k+e) for every modulus. *)
Lemma custom_ring_total k e ms : (4 <= k)%nat -> (1 <= e)%nat -> ms <> [] -> NoDup ms -> (forall q, In q ms -> prime q /\ q mod 2 ^ Z.of_nat (k + e) = 1 /\ 2 * q <= W) ->
  exists r, moduli r = ms /\ rN r = (2 ^ k)%nat /\ rNthRoot r = 2 ^ Z.of_nat (k + e) /\
    exists f0, forall fuel, (f0 <= fuel)%nat -> NewRingWithCustomNTT fuel (2 ^ Z.of_nat k) ms (2 ^ Z.of_nat (k + e)) = inl r.
Proof.
  intros Hk He H1 H2 H3.
  assert (HK : 16 <= 2 ^ Z.of_nat k) by (change 16 with (2 ^ 4); apply Z.pow_le_mono_r; lia).
  assert (HE : 32 <= 2 ^ Z.of_nat (k + e)) by (change 32 with (2 ^ 5); apply Z.pow_le_mono_r; lia).
  destruct (gen_all (2 ^ Z.of_nat (k + e)) ms) as (mps & E1 & E2).
  { intros q Hq. destruct (H3 q Hq) as (A & B & C). split; [exact A|]. split; [|exact C]. pose proof (prime_ge_2 q A).
    destruct (Z_lt_le_dec q (2 ^ Z.of_nat (k + e))) as [L|L]; [|lia]. rewrite Z.mod_small in B by lia. lia. }
  exists (mkRing (Z.to_nat (2 ^ Z.of_nat k)) (2 ^ Z.of_nat (k + e)) mps (fold_left Z.mul ms 1) (rescale_params ms)).
  split; [exact E1|]. split; [cbn [rN]; rewrite <- two_pow_nat; apply Nat2Z.id|]. split; [reflexivity|].
  exists (fold_right Nat.max 0%nat (map Z.to_nat ms)). intros fuel Hf. unfold NewRingWithCustomNTT.
  replace ((2 ^ Z.of_nat k <? 16) || negb (Z.land (2 ^ Z.of_nat k) (2 ^ Z.of_nat k - 1) =? 0)) with false
    by (rewrite pow2_land; symmetry; apply orb_false_iff; split; [apply Z.ltb_ge; exact HK|reflexivity]).
  replace (Nat.eqb (length ms) 0) with false by (symmetry; apply Nat.eqb_neq; destruct ms; [contradiction|discriminate]).
  replace (AllDistinct ms) with true by (symmetry; apply AllDistinct_spec; exact H2). cbn [negb].
  replace (forallb IsPrime ms) with true by (symmetry; apply forallb_forall; intros q Hq; apply IsPrime_spec; apply (H3 q Hq)). cbn [negb].
  replace (forallb (fun qi => Z.land qi (2 ^ Z.of_nat (k + e) - 1) =? 1) ms) with true.
  2:{ symmetry. apply forallb_forall. intros q Hq. destruct (H3 q Hq) as (A & B & C). pose proof (prime_ge_2 q A). rewrite land_mod_pow2 by lia. apply Z.eqb_eq. exact B. }
  cbn [negb]. rewrite E2; [reflexivity|]. clear - Hf. intros q Hq. revert Hf. induction ms as [|x ms IH]; [destruct Hq|]. cbn [map fold_right]. intros Hf. destruct Hq as [->|Hq]; [lia|apply IH; [exact Hq|lia]].
Qed.

Lemma from_type_total logn ms ty B : 4 <= logn -> ty = Standard \/ ty = ConjugateInvariant -> ms <> [] -> good_moduli (2 ^ degree_exp logn ty) B ms -> 2 * B <= W ->
  exists r, moduli r = ms /\ Z.of_nat (rN r) = 2 ^ logn /\ rNthRoot r = 2 ^ degree_exp logn ty /\
    exists f0, forall fuel, (f0 <= fuel)%nat -> NewRingFromType fuel (2 ^ logn) ms ty = inl r.
Proof.
  intros Hl HT HN [G1 G2] HB. set (e := if ty =? Standard then 1%nat else 2%nat).
  assert (EE : degree_exp logn ty = Z.of_nat (Z.to_nat logn + e)) by (unfold degree_exp, e; destruct (ty =? Standard); lia).
  destruct (custom_ring_total (Z.to_nat logn) e ms) as (r & M & N & R & f0 & F).
  - lia.
  - unfold e. destruct (ty =? Standard); lia.
  - exact HN.
  - exact G1.
  - intros q Hq. destruct (G2 q Hq) as (A & B' & C). rewrite EE in B'. split; [exact A|]. split; [exact B'|lia].
  - exists r. split; [exact M|]. split; [rewrite N, two_pow_nat, Z2Nat.id by lia; reflexivity|]. rewrite EE. split; [exact R|]. exists f0. intros fuel Hf. specialize (F fuel Hf). rewrite Z2Nat.id in F by lia.
    unfold NewRingFromType. destruct HT as [-> | ->].
    + change (Standard =? Standard) with true in *. cbv iota. unfold e in F. rewrite Nat2Z.inj_add, Z2Nat.id, Z.pow_add_r in F by lia. change (2 ^ Z.of_nat 1) with 2 in F. rewrite (Z.mul_comm (2 ^ logn) 2) in F. rewrite F. reflexivity.
    + change (ConjugateInvariant =? Standard) with false in *. change (ConjugateInvariant =? ConjugateInvariant) with true. cbv iota. unfold e in F. rewrite Nat2Z.inj_add, Z2Nat.id, Z.pow_add_r in F by lia. change (2 ^ Z.of_nat 2) with 4 in F. rewrite (Z.mul_comm (2 ^ logn) 4) in F. rewrite F. reflexivity.
Qed.

Lemma len_ok x m : 2 <= x < 2 ^ (m + 1) -> 0 <= m <= 63 -> negb (m <? (Len64 x - 1) mod W) = true.
Proof.
  intros Hx Hm. apply negb_true_iff, Z.ltb_ge. unfold Len64. rewrite (proj2 (Z.eqb_neq _ _)) by lia. replace (Z.log2 x + 1 - 1) with (Z.log2 x) by ring.
  assert (Z.log2 x < m + 1) by (apply Z.log2_lt_pow2; lia). pose proof (Z.log2_nonneg x). change W with (2 ^ 64). rewrite Z.mod_small; [lia|]. split; [lia|]. apply Z.le_lt_trans with 64; [lia|reflexivity].
Qed.
Lemma check_total q p M : (length q <= 100)%nat -> (length p <= 100)%nat -> good_moduli M (2 ^ 62) q -> good_moduli M (2 ^ 63) p -> CheckModuli q p = true.
Proof.
  intros Lq Lp [_ Gq] [_ Gp]. unfold CheckModuli, MaxModuliCount, MaxModuliSize. rewrite !andb_true_iff, !Z.leb_le, !forallb_forall.
  repeat split; [lia|lia| | | |]; intros x Hx.
  - apply (len_ok x 61); [apply (Gq x Hx)|lia].
  - apply (len_ok x 62); [apply (Gp x Hx)|lia].
  - apply IsPrime_spec. apply (Gq x Hx).
  - apply IsPrime_spec. apply (Gp x Hx).
Qed.
Lemma new_parameters_total logn q p hh sg ty : admissible logn q p ty ->
  exists P, (exists f0, forall fuel, (f0 <= fuel)%nat -> NewParameters fuel logn q p hh sg ty = (P, None)) /\ rings_ok P /\ logN P = logn /\ qi P = q /\ pi P = p /\ h P = hh /\ sigma P = sg /\ ringType P = ty.
Proof.
  intros (Hl & HT & Lq & Lp & Gq & Gp).
  destruct (from_type_total logn q ty (2 ^ 62) ltac:(lia) HT ltac:(destruct q; [cbn in Lq; lia|discriminate]) Gq ltac:(change W with (2 ^ 64); lia)) as (rQ & MQ & NQ & RQ & fQ & EQ).
  assert (CS : checkSizeParams logn (Z.of_nat (length q)) (Z.of_nat (length p)) = true) by (unfold checkSizeParams, MaxLogN, MinLogN, MaxModuliCount; rewrite !andb_true_iff, !Z.leb_le; lia).
  assert (CM := check_total q p _ (proj2 Lq) Lp Gq Gp).
  destruct p as [|x p].
  - exists (mkParams logn q [] sg hh (Some rQ) None ty). split.
    + exists fQ. intros fuel Hf. unfold NewParameters. rewrite CS, CM. cbn [negb]. unfold initRings. cbn [logN qi pi sigma h ringQ ringP ringType length Nat.eqb]. rewrite (EQ fuel Hf). reflexivity.
    + cbn [logN qi pi sigma h ringQ ringP ringType]. split; [|repeat split; reflexivity]. split; cbn [logN qi pi sigma h ringQ ringP ringType]; [|left; split; reflexivity]. exists rQ. repeat split; assumption.
  - destruct (from_type_total logn (x :: p) ty (2 ^ 63) ltac:(lia) HT ltac:(discriminate) Gp ltac:(change W with (2 ^ 64); lia)) as (rP & MP & NP & RP & fP & EP).
    exists (mkParams logn q (x :: p) sg hh (Some rQ) (Some rP) ty). split.
    + exists (Nat.max fQ fP). intros fuel Hf. unfold NewParameters. rewrite CS, CM. cbn [negb]. unfold initRings. cbn [logN qi pi sigma h ringQ ringP ringType]. rewrite (EQ fuel ltac:(lia)), (EP fuel ltac:(lia)). reflexivity.
    + cbn [logN qi pi sigma h ringQ ringP ringType]. split; [|repeat split; reflexivity]. split; cbn [logN qi pi sigma h ringQ ringP ringType].
      * exists rQ. repeat split; assumption.
      * right. exists rP. repeat split; assumption.
Qed.
(** Exactly the admissible chains are accepted. *)
Lemma accepted_iff logn q p hh sg ty : Forall word q -> Forall word p ->
  ((exists fuel P, NewParameters fuel logn q p hh sg ty = (P, None)) <-> admissible logn q p ty).
Proof.
  intros Wq Wp. split.
  - intros (fuel & P & H). exact (accepted_moduli fuel logn q p hh sg ty P H Wq Wp).
  - intros H. destruct (new_parameters_total logn q p hh sg ty H) as (P & (f0 & F) & _). exists f0, P. apply F. lia.
Qed.

(** frlwe: chains given by their sizes always end in a panic. *)
Lemma sizes_panic fuel rfuel d lq lp : lQ (flRlwe d) = None -> lLogQ (flRlwe d) = Some lq -> lP (flRlwe d) = None -> lLogP (flRlwe d) = Some lp ->
  Frlwe_NewParametersFromLiteral fuel rfuel d = None \/ Frlwe_NewParametersFromLiteral fuel rfuel d = Some Panic.
Proof.
  intros E1 E2 E3 E4. unfold Frlwe_NewParametersFromLiteral. rewrite E1, E2, E3, E4. unfold ParametersFromSizes. cbn [lQ lLogQ lP lLogP lH lLogN lSigma lType given app].
  assert (NR : forall N, exists e, NewRing rfuel N [] = inr e).
  { intros N. unfold NewRing, NewRingWithCustomNTT. destruct (_ || _); [eexists; reflexivity|]. eexists. reflexivity. }
  destruct ((lH (flRlwe d) =? 0) && (lLogN (flRlwe d) - 1 <? 0)); [right; reflexivity|]. change (Standard =? Standard) with true. cbv iota.
  destruct (GenModuli fuel (lLogN (flRlwe d)) lq lp) as [[[q p]| |]|]; [right|right|right|left; reflexivity].
  - destruct (NewParameters _ _ _ _ _ _ _) as [rp [e|]]; [reflexivity|]. destruct (NewRing rfuel _ (flT d)); [|reflexivity]. destruct (NR (2 ^ lLogN (flRlwe d))) as [e ->]. reflexivity.
  - reflexivity.
  - reflexivity.
Qed.

Lemma wrap_small z : 0 < z <= 2 ^ 16 -> int_wrap z = z.
Proof. intros Hz. unfold int_wrap. change W with (2 ^ 64). rewrite Z.mod_small by lia. destruct (Z.ltb_spec z (2 ^ 63)); [reflexivity|lia]. Qed.
Lemma frlwe_total logn q p t sg hh gamma : fast_admissible logn q p t ->
  exists P, (exists f0, forall fuel rfuel, (f0 <= rfuel)%nat -> Frlwe_NewParametersFromLiteral fuel rfuel (mkFLit (mkLit logn (Some q) (Some p) None None sg hh Standard) t gamma) = Some (Ret P)) /\
    rings_ok (fRlwe P) /\ moduli (fRingR P) = p ++ q /\ moduli (fRingT P) = t /\ fGamma P = gamma /\ logN (fRlwe P) = logn /\ qi (fRlwe P) = q /\ pi (fRlwe P) = p /\
    h (fRlwe P) = (if hh =? 0 then 2 ^ (logn - 1) else hh) /\ sigma (fRlwe P) = (if f64_same sg (f64_of_Z 0) then DefaultSigma else sg) /\
    exists p' f0, fast_rings P = Some p' /\ forall rfuel, (f0 <= rfuel)%nat -> NewFParams rfuel (2 ^ logn) q p t gamma = Some p'.
Proof.
  intros (HA & HP & HD & HT & GT). assert (HA' := HA). destruct HA' as (Hl & _ & Lq & Lp & Gq & Gp).
  destruct (new_parameters_total logn q p (if hh =? 0 then int_wrap (2 ^ (logn - 1)) else hh) (if f64_same sg (f64_of_Z 0) then DefaultSigma else sg) Standard HA) as (P & (f1 & F1) & R & E1 & E2 & E3 & E4 & E5 & E6).
  destruct (from_type_total logn t Standard (2 ^ 63) ltac:(lia) (or_introl eq_refl) HT GT ltac:(change W with (2 ^ 64); lia)) as (rT & MT & NT & _ & f2 & F2).
  assert (GR : good_moduli (2 ^ degree_exp logn Standard) (2 ^ 63) (p ++ q)).
  { split; [exact HD|]. intros x Hx. apply in_app_iff in Hx. destruct Hx as [Hx|Hx]; [apply (proj2 Gp x Hx)|]. destruct (proj2 Gq x Hx) as (A & B & C). split; [exact A|]. split; [exact B|lia]. }
  destruct (from_type_total logn (p ++ q) Standard (2 ^ 63) ltac:(lia) (or_introl eq_refl) ltac:(destruct p; [contradiction|discriminate]) GR ltac:(change W with (2 ^ 64); lia)) as (rR & MR & NR & _ & f3 & F3).
  assert (NEW : forall fuel ms r, NewRingFromType fuel (2 ^ logn) ms Standard = inl r -> NewRing fuel (2 ^ logn) ms = inl r).
  { intros fuel ms r E. unfold NewRingFromType in E. change (Standard =? Standard) with true in E. cbv iota in E. unfold NewRing. destruct (NewRingWithCustomNTT _ _ _ _); [injection E as ->; reflexivity|discriminate E]. }
  assert (IW : int_wrap (2 ^ (logn - 1)) = 2 ^ (logn - 1)) by (apply wrap_small; split; [apply Z.pow_pos_nonneg; lia|apply Z.pow_le_mono_r; lia]).
  exists (mkFrlwe P gamma rR rT). cbn [fRlwe fRingR fRingT fGamma].
  split.
  { exists (Nat.max f1 (Nat.max f2 f3)). intros fuel rfuel Hf. unfold Frlwe_NewParametersFromLiteral, ParametersFromSizes. cbn [flRlwe flT flGamma lQ lLogQ lP lLogP lH lLogN lSigma lType given].
    unfold NewParametersFromLiteral. cbn [lQ lLogQ lP lLogP lH lLogN lSigma lType]. replace ((hh =? 0) && (logn - 1 <? 0)) with false by (symmetry; apply andb_false_iff; right; apply Z.ltb_ge; lia).
    rewrite (F1 rfuel ltac:(lia)). rewrite (NEW _ _ _ (F2 rfuel ltac:(lia))), (NEW _ _ _ (F3 rfuel ltac:(lia))). reflexivity. }
  rewrite IW in E4. split; [exact R|]. split; [exact MR|]. split; [exact MT|]. split; [reflexivity|]. split; [exact E1|]. split; [exact E2|]. split; [exact E3|]. split; [exact E4|]. split; [exact E5|].
  assert (G1 := F1 f1 (le_n f1)). destruct (new_fields _ _ _ _ _ _ _ _ G1) as (_ & _ & _ & _ & _ & _ & _ & _ & _).
  assert (I : forall rfuel, (f1 <= rfuel)%nat -> exists rQ rP, ringQ P = Some rQ /\ ringP P = Some rP /\ NewRing rfuel (2 ^ logn) q = inl rQ /\ NewRing rfuel (2 ^ logn) p = inl rP).
  { intros rfuel Hf. assert (G := F1 rfuel Hf). destruct (new_fields _ _ _ _ _ _ _ _ G) as (_ & _ & _ & _ & _ & _ & _ & _ & I). unfold initRings in I. cbn [logN qi pi ringType sigma h ringP] in I.
    destruct (NewRingFromType rfuel (2 ^ logn) q Standard) as [rq|] eqn:EQ; [|discriminate I]. destruct p as [|y p']; [contradiction|]. cbn [length Nat.eqb] in I.
    destruct (NewRingFromType rfuel (2 ^ logn) (y :: p') Standard) as [rp|] eqn:EP; [|discriminate I]. injection I as <-. cbn [ringQ ringP]. exists rq, rp. split; [reflexivity|]. split; [reflexivity|]. split; apply NEW; assumption. }
  destruct (I f1 (le_n f1)) as (rQ & rP & I1 & I2 & _). exists (mkFP rQ rP rT rR gamma), (Nat.max f1 (Nat.max f2 f3)). split; [unfold fast_rings; cbn [fRlwe fRingR fRingT fGamma]; rewrite I1, I2; reflexivity|].
  intros rfuel Hf. destruct (I rfuel ltac:(lia)) as (rQ' & rP' & I1' & I2' & I3 & I4). rewrite I1 in I1'. injection I1' as <-. rewrite I2 in I2'. injection I2' as <-.
  unfold NewFParams. rewrite I3, I4, (NEW _ _ _ (F2 rfuel ltac:(lia))), (NEW _ _ _ (F3 rfuel ltac:(lia))). reflexivity.
Qed.

Lemma ckks_total logn q p hh sg ty ls sc : admissible logn q p ty -> 0 <= ls <= degree_exp logn ty - 2 ->
  exists P, (exists f0, forall fuel, (f0 <= fuel)%nat -> Ckks_NewParametersFromLiteral fuel (mkCkksLit (mkLit logn (Some q) (Some p) None None sg hh ty) ls sc) = Ret (mkCkks P (slots_used logn ty ls) sc, None)) /\
    rings_ok P /\ logN P = logn /\ qi P = q /\ pi P = p /\ ringType P = ty /\
    h P = (if hh =? 0 then 2 ^ (logn - 1) else hh) /\ sigma P = (if f64_same sg (f64_of_Z 0) then DefaultSigma else sg).
Proof.
  intros HA Hls. assert (HA' := HA). destruct HA' as (Hl & HT & _).
  destruct (new_parameters_total logn q p (if hh =? 0 then int_wrap (2 ^ (logn - 1)) else hh) (if f64_same sg (f64_of_Z 0) then DefaultSigma else sg) ty HA) as (P & (f1 & F1) & R & E1 & E2 & E3 & E4 & E5 & E6).
  assert (IW : int_wrap (2 ^ (logn - 1)) = 2 ^ (logn - 1)) by (apply wrap_small; split; [apply Z.pow_pos_nonneg; lia|apply Z.pow_le_mono_r; lia]).
  exists P. split; [|rewrite IW in E4; repeat split; try assumption; apply R].
  exists f1. intros fuel Hf. unfold Ckks_NewParametersFromLiteral, NewParametersFromLiteral. cbn [clRlwe clLogSlots clScale lQ lLogQ lP lLogP lH lLogN lSigma lType].
  replace ((hh =? 0) && (logn - 1 <? 0)) with false by (symmetry; apply andb_false_iff; right; apply Z.ltb_ge; lia). cbn [bind]. rewrite (F1 fuel Hf).
  destruct R as [(rQ & R1 & R2 & R3 & R4) _]. unfold Ckks_NewParameters, Equals. rewrite E1. cbn [zeroParams logN]. rewrite (proj2 (Z.eqb_neq logn 0)) by lia. cbn [bind andb]. rewrite R1, R4, E1, E6.
  assert (LN : Len64 (2 ^ degree_exp logn ty) = degree_exp logn ty + 1).
  { assert (0 < degree_exp logn ty) by (unfold degree_exp; destruct (ty =? Standard); lia). unfold Len64. rewrite (proj2 (Z.eqb_neq _ _)) by (apply Z.pow_nonzero; lia). rewrite Z.log2_pow2 by lia. reflexivity. }
  rewrite LN. assert (SU : (if ls =? 0 then if ty =? Standard then logn - 1 else if ty =? ConjugateInvariant then logn else 0 else ls) = slots_used logn ty ls) by (unfold slots_used; destruct HT as [-> | ->]; reflexivity).
  rewrite SU. assert (B : 0 <= slots_used logn ty ls <= degree_exp logn ty - 2).
  { unfold slots_used, degree_exp in *. destruct (Z.eqb_spec ls 0); [|exact Hls]. destruct (ty =? Standard); lia. }
  replace ((degree_exp logn ty + 1 - 3 <? slots_used logn ty ls) || (slots_used logn ty ls <? 0)) with false; [reflexivity|]. symmetry. apply orb_false_iff. rewrite !Z.ltb_ge. lia.
Qed.
(** fckks. *)
Lemma fckks_total logn q p t sg hh gamma ls sc : fast_admissible logn q p t -> 0 <= ls <= logn - 1 ->
  exists C F, (exists f0, forall rfuel, (f0 <= rfuel)%nat -> Fckks_NewParametersFromLiteral rfuel (mkFLit (mkLit logn (Some q) (Some p) None None sg hh Standard) t gamma) ls sc = Ret (C, F)) /\
    cRlwe C = fRlwe F /\ cLogSlots C = slots_used logn Standard ls /\ cScale C = sc /\
    exists p' f0, fast_rings F = Some p' /\ forall rfuel, (f0 <= rfuel)%nat -> NewFParams rfuel (2 ^ logn) q p t gamma = Some p'.
Proof.
  intros HA Hls. destruct (frlwe_total logn q p t sg hh gamma HA) as (F & (f1 & F1) & _ & _ & _ & _ & _ & _ & _ & _ & _ & FR).
  destruct (ckks_total logn q p hh sg Standard ls sc (proj1 HA) ltac:(unfold degree_exp; change (Standard =? Standard) with true; cbv iota; lia)) as (P & (f2 & F2) & _).
  exists (mkCkks P (slots_used logn Standard ls) sc), F. split.
  - exists (Nat.max f1 f2). intros rfuel Hf. unfold Fckks_NewParametersFromLiteral. cbn [flRlwe lQ lLogQ lP lLogP lH lLogN lSigma lType]. rewrite (F2 rfuel ltac:(lia)). cbn [bind]. rewrite (F1 O rfuel ltac:(lia)). reflexivity.
  - cbn [cRlwe cLogSlots cScale]. split; [|split; [reflexivity|split; [reflexivity|exact FR]]].
    assert (G1 := F1 O (Nat.max f1 f2) ltac:(lia)). assert (G2 := F2 (Nat.max f1 f2) ltac:(lia)). set (fu := Nat.max f1 f2) in *. clearbody fu.
    unfold Frlwe_NewParametersFromLiteral, ParametersFromSizes in G1. cbn [flRlwe flT flGamma lQ lLogQ lP lLogP lH lLogN lSigma lType given] in G1. unfold Ckks_NewParametersFromLiteral in G2. cbn [clRlwe clLogSlots clScale] in G2.
    destruct (NewParametersFromLiteral fu _) as [[rp [e|]]| |]; cbn [bind] in G2; try discriminate.
    destruct (NewRing fu _ t); [|discriminate G1]. destruct (NewRing fu _ (p ++ q)); [|discriminate G1]. injection G1 as <-. cbn [fRlwe].
    unfold Ckks_NewParameters in G2. destruct (Equals rp zeroParams) as [[|]| |]; cbn [bind] in G2; try discriminate. destruct (ringQ rp); [|discriminate]. destruct (_ || _); [discriminate|]. injection G2 as <-. reflexivity.
Qed.

(** Sizes that rlwe accepts. *)
Lemma sizes_case : exists fuel rfuel P, ParametersFromSizes fuel rfuel PrimesEx.shared_sizes = Some (Ret (P, None)) /\
  forall t gamma, Frlwe_NewParametersFromLiteral fuel rfuel (mkFLit PrimesEx.shared_sizes t gamma) = Some Panic.
Proof.
  destruct PrimesEx.sizes_share as (fuel & rfuel & P & H & _). exists fuel, rfuel, P. split; [exact H|]. intros t gamma.
  destruct (sizes_panic fuel rfuel (mkFLit PrimesEx.shared_sizes t gamma) [5] [6] eq_refl eq_refl eq_refl eq_refl) as [E|E]; [|exact E]. exfalso.
  unfold Frlwe_NewParametersFromLiteral in E. cbn [flRlwe] in E. change (mkLit _ _ _ _ _ _ _ Standard) with PrimesEx.shared_sizes in E. rewrite H in E. discriminate E.
Qed.

(** Nothing else is accepted. *)
Lemma literal_accepted fuel logn q p hh sg ty P : Forall word q -> Forall word p ->
  NewParametersFromLiteral fuel (mkLit logn (Some q) (Some p) None None sg hh ty) = Ret (P, None) -> admissible logn q p ty.
Proof.
  intros Wq Wp H. unfold NewParametersFromLiteral in H. cbn [lQ lLogQ lP lLogP lH lLogN lSigma lType] in H. destruct (_ && _); [discriminate H|].
  injection H as H. exact (accepted_moduli _ _ _ _ _ _ _ _ H Wq Wp).
Qed.
Lemma new_ring_good fuel logn ms r : 0 <= logn -> NewRing fuel (2 ^ logn) ms = inl r -> Forall (fun x => x < 2 ^ 63) ms -> ms <> [] /\ good_moduli (2 ^ degree_exp logn Standard) (2 ^ 63) ms.
Proof.
  intros Hl H B. unfold NewRing in H. destruct (ParamsProofs.ring_moduli fuel (2 ^ logn) ms 1 r (Z.to_nat logn) H ltac:(rewrite Z2Nat.id by exact Hl; reflexivity)) as (A1 & A2 & A3).
  split; [exact A2|]. split; [exact A1|]. intros x Hx. destruct (A3 x Hx) as [PX MX]. split; [exact PX|]. split; [|split; [apply prime_ge_2; exact PX|rewrite Forall_forall in B; exact (B x Hx)]].
  unfold degree_exp. change (Standard =? Standard) with true. cbv iota. rewrite Z.pow_add_r by lia. rewrite Z.mul_comm. exact MX.
Qed.
Lemma custom_root fuel N ms R r : NewRingWithCustomNTT fuel N ms R = inl r -> rNthRoot r = R.
Proof.
  intros H. unfold NewRingWithCustomNTT in H. destruct (_ || _); [discriminate H|]. destruct (Nat.eqb _ _); [discriminate H|]. destruct (AllDistinct ms); [|discriminate H]. destruct (forallb IsPrime ms); [|discriminate H].
  destruct (forallb _ ms) in H; [|discriminate H]. cbn [negb] in H. destruct (sequence _) in H; [|discriminate H]. injection H as <-. reflexivity.
Qed.
Lemma frlwe_accepted logn q p t sg hh gamma : Forall word q -> Forall word p -> Forall (fun x => x < 2 ^ 63) t -> p <> [] ->
  ((exists fuel rfuel P, Frlwe_NewParametersFromLiteral fuel rfuel (mkFLit (mkLit logn (Some q) (Some p) None None sg hh Standard) t gamma) = Some (Ret P)) <-> fast_admissible logn q p t).
Proof.
  intros Wq Wp Wt HP. split.
  - intros (fuel & rfuel & P & H). unfold Frlwe_NewParametersFromLiteral, ParametersFromSizes in H. cbn [flRlwe flT flGamma lQ lLogQ lP lLogP lH lLogN lSigma lType given] in H.
    destruct (NewParametersFromLiteral rfuel _) as [[rp [e|]]| |] eqn:EL; try discriminate H. assert (HA := literal_accepted _ _ _ _ _ _ _ _ Wq Wp EL).
    destruct (NewRing rfuel _ t) as [rT|] eqn:ET; [|discriminate H]. destruct (NewRing rfuel _ (p ++ q)) as [rR|] eqn:ER; [|discriminate H].
    assert (HA' := HA). destruct HA' as (Hl & _ & _ & _ & Gq & Gp). split; [exact HA|]. split; [exact HP|].
    split; [|apply (new_ring_good rfuel logn t rT ltac:(lia) ET Wt)].
    apply (new_ring_good rfuel logn (p ++ q) rR ltac:(lia) ER). apply Forall_forall. intros x Hx. apply in_app_iff in Hx. destruct Hx as [Hx|Hx]; [destruct (proj2 Gp x Hx) as (_ & _ & C)|destruct (proj2 Gq x Hx) as (_ & _ & C)]; lia.
  - intros HA. destruct (frlwe_total logn q p t sg hh gamma HA) as (P & (f0 & F) & _). exists O, f0, P. apply F. lia.
Qed.
Lemma ckks_accepted logn q p hh sg ty ls sc : Forall word q -> Forall word p ->
  ((exists fuel C, Ckks_NewParametersFromLiteral fuel (mkCkksLit (mkLit logn (Some q) (Some p) None None sg hh ty) ls sc) = Ret (C, None)) <-> admissible logn q p ty /\ 0 <= ls <= degree_exp logn ty - 2).
Proof.
  intros Wq Wp. split.
  - intros (fuel & C & H). unfold Ckks_NewParametersFromLiteral in H. cbn [clRlwe clLogSlots clScale lType lLogN] in H.
    destruct (NewParametersFromLiteral fuel _) as [[rp [e|]]| |] eqn:EL; cbn [bind] in H; try discriminate H. assert (HA := literal_accepted _ _ _ _ _ _ _ _ Wq Wp EL). split; [exact HA|].
    unfold NewParametersFromLiteral in EL. cbn [lQ lLogQ lP lLogP lH lLogN lSigma lType] in EL. destruct (_ && _); [discriminate EL|]. injection EL as EL.
    destruct (new_parameters_total logn q p (if hh =? 0 then int_wrap (2 ^ (logn - 1)) else hh) (if f64_same sg (f64_of_Z 0) then DefaultSigma else sg) ty HA) as (P & (f1 & F1) & R & E1 & _ & _ & _ & _ & E6).
    assert (FM : NewParameters (Nat.max fuel f1) logn q p (if hh =? 0 then int_wrap (2 ^ (logn - 1)) else hh) (if f64_same sg (f64_of_Z 0) then DefaultSigma else sg) ty = (P, None)) by (apply F1; lia).
    assert (HL : 4 <= logn <= 17) by apply HA.
    assert (RK : exists r, ringQ rp = Some r /\ rNthRoot r = 2 ^ degree_exp logn ty).
    { destruct (new_fields _ _ _ _ _ _ _ _ EL) as (_ & _ & _ & _ & _ & _ & _ & _ & I). unfold initRings in I. cbn [logN qi pi ringType sigma h ringP] in I.
      destruct (NewRingFromType fuel (2 ^ logn) q ty) as [rq|] eqn:EQ; [|discriminate I]. exists rq. split.
      - destruct (Nat.eqb (length p) 0); [injection I as <-; reflexivity|]. destruct (NewRingFromType fuel (2 ^ logn) p ty); [injection I as <-; reflexivity|discriminate I].
      - destruct HA as (_ & HT & _). unfold NewRingFromType in EQ. unfold degree_exp. destruct HT as [-> | ->].
        + change (Standard =? Standard) with true in *. cbv iota in *. destruct (NewRingWithCustomNTT _ _ _ _) eqn:EC; [|discriminate EQ]. injection EQ as <-. rewrite (custom_root _ _ _ _ _ EC), Z.pow_add_r by lia. ring.
        + change (ConjugateInvariant =? Standard) with false in *. change (ConjugateInvariant =? ConjugateInvariant) with true in *. cbv iota in *. destruct (NewRingWithCustomNTT _ _ _ _) eqn:EC; [|discriminate EQ]. injection EQ as <-. rewrite (custom_root _ _ _ _ _ EC), Z.pow_add_r by lia. ring. }
    destruct RK as (r & RK1 & RK2). unfold Ckks_NewParameters in H. destruct (Equals rp zeroParams) as [[|]| |]; cbn [bind] in H; try discriminate H. rewrite RK1, RK2 in H.
    assert (LN : Len64 (2 ^ degree_exp logn ty) = degree_exp logn ty + 1).
    { assert (0 < degree_exp logn ty) by (unfold degree_exp; destruct (ty =? Standard); lia). unfold Len64. rewrite (proj2 (Z.eqb_neq _ _)) by (apply Z.pow_nonzero; lia). rewrite Z.log2_pow2 by lia. reflexivity. }
    rewrite LN in H. destruct (_ || _) eqn:EO in H; [discriminate H|]. apply orb_false_iff in EO. rewrite !Z.ltb_ge in EO.
    destruct (Z.eqb_spec ls 0); [subst ls; unfold degree_exp; destruct (ty =? Standard); lia|lia].
  - intros [HA HS]. destruct (ckks_total logn q p hh sg ty ls sc HA HS) as (P & (f0 & F) & _). eexists f0, _. apply F. lia.
Qed.
Lemma fckks_accepted logn q p t sg hh gamma ls sc : Forall word q -> Forall word p -> Forall (fun x => x < 2 ^ 63) t -> p <> [] ->
  ((exists rfuel C F, Fckks_NewParametersFromLiteral rfuel (mkFLit (mkLit logn (Some q) (Some p) None None sg hh Standard) t gamma) ls sc = Ret (C, F)) <-> fast_admissible logn q p t /\ 0 <= ls <= logn - 1).
Proof.
  intros Wq Wp Wt HP. split.
  - intros (rfuel & C & F & H). unfold Fckks_NewParametersFromLiteral in H. cbn [flRlwe lQ lLogQ lP lLogP lH lLogN lSigma lType] in H.
    destruct (Ckks_NewParametersFromLiteral rfuel _) as [[cp [e|]]| |] eqn:EC; cbn [bind] in H; try discriminate H.
    destruct (Frlwe_NewParametersFromLiteral O rfuel _) as [[fp| |]|] eqn:EF; cbn [bind] in H; try discriminate H.
    split; [apply (frlwe_accepted logn q p t sg hh gamma Wq Wp Wt HP); exists O, rfuel, fp; exact EF|].
    destruct (proj1 (ckks_accepted logn q p hh sg Standard ls sc Wq Wp) (ex_intro _ rfuel (ex_intro _ cp EC))) as [_ B]. unfold degree_exp in B. change (Standard =? Standard) with true in B. cbv iota in B. lia.
  - intros [HA HS]. destruct (fckks_total logn q p t sg hh gamma ls sc HA HS) as (C & F & (f0 & G) & _). exists f0, C, F. apply G. lia.
Qed.
