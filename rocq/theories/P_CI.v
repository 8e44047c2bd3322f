(** Properties C84 and C85: the conjugate-invariant rings. *)
From Verif Require Import Word PolySpec Ring RingOps RNSSpec Automorphism CI CISpec CIProps CISwap Examples CIEx.

(** C84: at position k the transform holds the value of c_0 + sum c_j (X^j + X^-j) at psi^(2*bitrev(k)+1), psi a root of X^2N+1. *)
Theorem C84_ci_ntt_is_evaluation : forall r, built_ci 8 r ->
  exists (L : nat) (psi : nat -> Z),
    rN r = (2 ^ L)%nat /\
    (forall i, (i < length (rmods r))%nat -> eqm (mq (rmod r i)) (psi i ^ Z.of_nat (2 * rN r)) (-1)) /\
    forall level p1 p2 B, (level < length (rmods r))%nat -> words r level B p1 ->
      (forall i, (i <= level)%nat -> B (mq (rmod r i)) + 4 * mq (rmod r i) <= W) ->
      forall i k, (i <= level)%nat -> (k < rN r)%nat ->
        coeff (CIForwardLvl r level p1 p2) i k =
          peval (2 * rN r) (ci_poly (rN r) (co (nth i p1 []))) (psi i ^ (2 * Z.of_nat (bitrev (S L) k) + 1)) mod mq (rmod r i).
Proof. exact ci_evaluation_lemma. Qed.
Print Assumptions C84_ci_ntt_is_evaluation.

Theorem C84_ci_inverse_after_forward : forall r, built_ci 8 r -> forall level p1 p2 p3 B,
  (level < length (rmods r))%nat -> words r level B p1 ->
  (forall i, (i <= level)%nat -> B (mq (rmod r i)) + 4 * mq (rmod r i) <= W) ->
  forall i k, (i <= level)%nat -> (k < rN r)%nat ->
    coeff (CIBackwardLvl r level (CIForwardLvl r level p1 p2) p3) i k = coeff p1 i k mod mq (rmod r i) /\
    (0 <= coeff (CIBackwardLazyLvl r level (CIForwardLvl r level p1 p2) p3) i k < 2 * mq (rmod r i) /\
     eqm (mq (rmod r i)) (coeff (CIBackwardLazyLvl r level (CIForwardLvl r level p1 p2) p3) i k) (coeff p1 i k)) /\
    eqm (mq (rmod r i)) (coeff (CIForwardLazyLvl r level p1 p2) i k) (coeff (CIForwardLvl r level p1 p2) i k).
Proof. exact ci_roundtrip_lemma. Qed.
Print Assumptions C84_ci_inverse_after_forward.

Theorem C84_ci_forward_after_inverse : forall r, built_ci 8 r -> forall level p1 p2 p3,
  (level < length (rmods r))%nat -> words r level (fun q => 2 * q) p1 ->
  forall i k, (i <= level)%nat -> (k < rN r)%nat ->
    coeff (CIForwardLvl r level (CIBackwardLvl r level p1 p2) p3) i k = coeff p1 i k mod mq (rmod r i) /\
    coeff (CIForwardLvl r level (CIBackwardLazyLvl r level p1 p2) p3) i k = coeff p1 i k mod mq (rmod r i).
Proof. exact ci_roundtrip2_lemma. Qed.
Print Assumptions C84_ci_forward_after_inverse.

(** The product of the transforms is the product of the polynomials, which is again conjugate-invariant. *)
Theorem C84_ci_product : forall r, built_ci 8 r -> forall level a b t1 t2 t3 t4 t5,
  (level < length (rmods r))%nat -> words r level canon a -> words r level canon b ->
  forall i k, (i <= level)%nat -> (k < 2 * rN r)%nat ->
    let A := CIForwardLvl r level a t1 in
    let B := MFormLvl r level (CIForwardLvl r level b t2) t3 in
    let C := CIBackwardLvl r level (MulCoeffsMontgomeryLvl r level A B t4) t5 in
    words r level canon C /\
    eqm (mq (rmod r i)) (ci_poly (rN r) (co (nth i C [])) k)
      (pmul (2 * rN r) (ci_poly (rN r) (co (nth i a []))) (ci_poly (rN r) (co (nth i b []))) k).
Proof. exact ci_product_lemma. Qed.
Print Assumptions C84_ci_product.

Theorem C84_ci_lazy_ranges : forall r, built_ci 8 r -> forall level p1 p2,
  (level < length (rmods r))%nat ->
  (words r level (fun q => 4 * q) p1 ->
   words r level (fun q => 8 * q) (CIForwardLazyLvl r level p1 p2)) /\
  (words r level (fun q => 2 * q) p1 ->
   words r level (fun q => 2 * q) (CIBackwardLazyLvl r level p1 p2) /\
   words r level (fun q => q) (CIBackwardLvl r level p1 p2)).
Proof. exact ci_ranges_lemma. Qed.
Print Assumptions C84_ci_lazy_ranges.

(** The documented range [0, 2q-1] of the lazy forward transform fails on a reduced input. *)
Theorem C84_ci_documented_lazy_range_refuted :
  exists r p, built_ci 8 r /\ words r 0 canon p /\ ~ words r 0 (fun q => 2 * q) (CIForwardLazyLvl r 0 p []).
Proof.
  exists ci16, ci_a. split; [exact ci16_built|]. split; [apply wordsb_ok; vm_compute; reflexivity|].
  intros [_ H]. destruct (H 0%nat ltac:(lia)) as [_ H'].
  assert (E : existsb (fun k => 2 * 193 <=? coeff (CIForwardLazyLvl ci16 0 ci_a []) 0 k) (seq 0 16) = true) by (vm_compute; reflexivity).
  apply existsb_exists in E. destruct E as (k & Hk & E). apply in_seq in Hk. specialize (H' k).
  change (rN ci16) with 16%nat in H'. change (mq (rmod ci16 0)) with 193 in H'. apply Z.leb_le in E. lia.
Qed.
Print Assumptions C84_ci_documented_lazy_range_refuted.

Example C84_case : built_ci 8 ci16 /\ words ci16 2 canon ci_a /\ words ci16 2 canon ci_b /\
  (forall i, (i <= 2)%nat -> canon (mq (rmod ci16 i)) + 4 * mq (rmod ci16 i) <= W) /\
  CIBackwardLvl ci16 2 (CIForwardLvl ci16 2 ci_a []) [] = ci_a /\ CIForwardLvl ci16 2 ci_a [] <> ci_a /\
  coeff (CIBackwardLvl ci16 2 (MulCoeffsMontgomeryLvl ci16 2 (CIForwardLvl ci16 2 ci_a [])
     (MFormLvl ci16 2 (CIForwardLvl ci16 2 ci_b []) []) []) []) 0 0 = 1 * 5 + 2 * 16 * 2.
Proof.
  split; [exact ci16_built|]. split; [apply wordsb_ok; vm_compute; reflexivity|]. split; [apply wordsb_ok; vm_compute; reflexivity|].
  split; [intros i Hi; destruct i as [|[|[|i]]]; [vm_compute; discriminate..|lia]|].
  split; [vm_compute; reflexivity|]. split; [vm_compute; discriminate|vm_compute; reflexivity].
Qed.

(** C85: the unfolded transform is the standard transform of the same polynomial. *)
Theorem C85_unfold : forall rc rs, paired 8 rc rs -> forall level p t1 out t2 B,
  (level < length (rmods rc))%nat -> words rc level B p ->
  (forall i, (i <= level)%nat -> B (mq (rmod rc i)) + 4 * mq (rmod rc i) <= W) ->
  length (nth 0 out []) = (2 * rN rc)%nat ->
  exists u, UnfoldConjugateInvariantToStandard level (CIForwardLvl rc level p t1) out = Some u /\
    words rs level canon u /\ kept level out u /\
    forall i k, (i <= level)%nat -> (k < rN rs)%nat ->
      coeff (InvNTTLvl rs level u t2) i k = ci_poly (rN rc) (co (nth i p [])) k mod mq (rmod rc i).
Proof. exact unfold_lemma. Qed.
Print Assumptions C85_unfold.

(** The folded transform is that of p(X) + p(X^-1). *)
Theorem C85_fold : forall rc rs, paired 8 rc rs -> forall level p t1 out t2 B,
  (level < length (rmods rc))%nat -> words rs level B p ->
  (forall i, (i <= level)%nat -> B (mq (rmod rc i)) + 4 * mq (rmod rc i) <= W) ->
  length (nth 0 out []) = rN rc ->
  exists f, FoldStandardToConjugateInvariant rc level (NTTLvl rs level p t1) (PermuteNTTIndex rs (2 * Z.of_nat (rN rs) - 1)) out = Some f /\
    words rc level canon f /\ kept level out f /\
    forall i k, (i <= level)%nat -> (k < rN rc)%nat ->
      coeff (CIBackwardLvl rc level f t2) i k = ci_trace (rN rc) (co (nth i p [])) k mod mq (rmod rc i).
Proof. exact fold_lemma. Qed.
Print Assumptions C85_fold.

(** Automorphisms X -> X^g with g = 1 mod 4 act on the transforms of a conjugate-invariant ring; for g = 3 mod 4 every index
    lies outside of the rows. *)
Theorem C85_ci_permute : forall r, built_ci 8 r -> forall level p t1 out t2 B g,
  (level < length (rmods r))%nat -> words r level B p ->
  (forall i, (i <= level)%nat -> B (mq (rmod r i)) + 4 * mq (rmod r i) <= W) ->
  0 <= g -> g mod 4 = 1 ->
  let C := CIBackwardLvl r level (PermuteNTTLvl r level (CIForwardLvl r level p t1) g out) t2 in
  words r level canon C /\
  forall i k, (i <= level)%nat -> (k < 2 * rN r)%nat ->
    eqm (mq (rmod r i)) (ci_poly (rN r) (co (nth i C [])) k)
      (pauto (2 * rN r) (Z.to_nat g) (ci_poly (rN r) (co (nth i p []))) k).
Proof. exact ci_permute_lemma. Qed.
Print Assumptions C85_ci_permute.

Theorem C85_ci_permute_outside : forall r, built_ci 8 r -> forall g, g mod 4 = 3 -> forall i, (i < rN r)%nat ->
  Z.of_nat (rN r) <= nth i (PermuteNTTIndex r g) 0.
Proof. exact ci_permute_outside_lemma. Qed.
Print Assumptions C85_ci_permute_outside.

(** StandardRing and ConjugateInvariantRing give the rings the constructors would build, and undo each other. *)
Theorem C85_standard_ring : forall fuel N ms rc, NewRingConjugateInvariant fuel N ms = inl rc ->
  (forall fuel' rs, StandardRing fuel' rc = Some rs <-> NewRing fuel' (2 * N) ms = inl rs) /\
  exists rs, StandardRing fuel rc = Some rs.
Proof. exact standard_ring_lemma. Qed.
Print Assumptions C85_standard_ring.

Theorem C85_conjugate_invariant_ring : forall fuel N ms rs, 16 <= N -> NewRing fuel (2 * N) ms = inl rs ->
  (forall fuel' rc, ConjugateInvariantRing fuel' rs = Some rc <-> NewRingConjugateInvariant fuel' N ms = inl rc) /\
  exists rc, ConjugateInvariantRing fuel rs = Some rc.
Proof. exact ci_ring_lemma. Qed.
Print Assumptions C85_conjugate_invariant_ring.

Theorem C85_ring_swap : forall fuel N ms rc rs, NewRingConjugateInvariant fuel N ms = inl rc -> StandardRing fuel rc = Some rs ->
  ConjugateInvariantRing fuel rs = Some rc.
Proof. exact ring_swap_lemma. Qed.
Print Assumptions C85_ring_swap.

(** The lengths the comments ask for, a compressed polynomial twice as long as the standard one, make both conversions panic. *)
Theorem C85_documented_degrees_refuted : forall level pci pstd r index, (0 < length (nth 0 pci []))%nat ->
  length (nth 0 pci []) = (2 * length (nth 0 pstd []))%nat ->
  UnfoldConjugateInvariantToStandard level pci pstd = None /\ FoldStandardToConjugateInvariant r level pstd index pci = None.
Proof.
  intros level pci pstd r index H0 H. unfold UnfoldConjugateInvariantToStandard, FoldStandardToConjugateInvariant, prow.
  destruct (Nat.eqb_spec (2 * length (nth 0 pci [])) (length (nth 0 pstd []))); [lia|].
  destruct (Nat.eqb_spec (length (nth 0 pstd [])) (2 * length (nth 0 pci []))); [lia|]. split; reflexivity.
Qed.
Print Assumptions C85_documented_degrees_refuted.

(** PadDefaultRingToConjuateInvariant sends different polynomials to the same one, in either domain. *)
Theorem C85_pad_refuted : forall isNTT, exists r p p' out, built_ring 8 r /\ words r 2 canon p /\ words r 2 canon p' /\ p <> p' /\
  PadDefaultRingToConjuateInvariant r isNTT p out <> None /\
  PadDefaultRingToConjuateInvariant r isNTT p out = PadDefaultRingToConjuateInvariant r isNTT p' out.
Proof.
  intros isNTT. exists ring16, (repeat (3 :: repeat 1 15) 3), (repeat ((if isNTT then 3 else 5) :: repeat 1 14 ++ [if isNTT then 2 else 1]) 3), (blank 32).
  split; [exact ring16_built|].
  destruct isNTT; (split; [apply wordsb_ok; vm_compute; reflexivity|]); (split; [apply wordsb_ok; vm_compute; reflexivity|]);
    (split; [vm_compute; discriminate|]); (split; [vm_compute; discriminate|vm_compute; reflexivity]).
Qed.
Print Assumptions C85_pad_refuted.

Example C85_case : paired 8 ci16 std32 /\ words ci16 2 canon ci_a /\ words std32 2 canon std_a /\
  length (nth 0 (blank 32) []) = (2 * rN ci16)%nat /\ length (nth 0 (blank 16) []) = rN ci16 /\
  StandardRing 1000 ci16 = Some std32 /\ 5 mod 4 = 1 /\
  match FoldStandardToConjugateInvariant ci16 2 (NTTLvl std32 2 std_a []) (PermuteNTTIndex std32 63) (blank 16) with
  | Some f => coeff (CIBackwardLvl ci16 2 f []) 0 3 = 4 - 3
  | None => False
  end.
Proof.
  split; [exact ci16_paired|]. split; [apply wordsb_ok; vm_compute; reflexivity|]. split; [apply wordsb_ok; vm_compute; reflexivity|].
  split; [reflexivity|]. split; [reflexivity|]. split; [vm_compute; reflexivity|]. split; [reflexivity|]. vm_compute. reflexivity.
Qed.
