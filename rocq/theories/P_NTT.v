(** Properties C06-C09: the transforms. *)
From Verif Require Import Word PolySpec Ring RingOps RNSSpec NTTProps Examples.

(** C06: at position k of row i the transform holds the value of the polynomial
    at psi^(2*bitrev(k)+1), psi being a root of X^N+1, for inputs whose words
    leave 4q of headroom below 2^64. *)
Theorem C06_ntt_is_evaluation : forall r, built_ring 8 r ->
  exists (L : nat) (psi : nat -> Z),
    rN r = (2 ^ L)%nat /\
    (forall i, (i < length (rmods r))%nat -> eqm (mq (rmod r i)) (psi i ^ Z.of_nat (rN r)) (-1)) /\
    forall level p1 p2 B, (level < length (rmods r))%nat -> words r level B p1 ->
      (forall i, (i <= level)%nat -> B (mq (rmod r i)) + 4 * mq (rmod r i) <= W) ->
      forall i k, (i <= level)%nat -> (k < rN r)%nat ->
        coeff (NTTLvl r level p1 p2) i k =
          peval (rN r) (co (nth i p1 [])) (psi i ^ (2 * Z.of_nat (bitrev L k) + 1)) mod mq (rmod r i).
Proof. exact C06_ntt_is_evaluation_lemma. Qed.
Print Assumptions C06_ntt_is_evaluation.

Example C06_case : built_ring 8 ring16 /\ (2 < length (rmods ring16))%nat /\ words ring16 2 canon poly_a /\
  (forall i, (i <= 2)%nat -> canon (mq (rmod ring16 i)) + 4 * mq (rmod ring16 i) <= W).
Proof.
  split; [exact ring16_built|]. split; [vm_compute; repeat constructor|].
  split; [apply wordsb_ok; vm_compute; reflexivity|].
  intros i Hi. destruct i as [|[|[|i]]]; [vm_compute; discriminate..|lia].
Qed.

(** C07. *)
Theorem C07_inverse_after_forward : forall r, built_ring 8 r -> forall level p1 p2 p3 B,
  (level < length (rmods r))%nat -> words r level B p1 ->
  (forall i, (i <= level)%nat -> B (mq (rmod r i)) + 4 * mq (rmod r i) <= W) ->
  forall i k, (i <= level)%nat -> (k < rN r)%nat ->
    coeff (InvNTTLvl r level (NTTLvl r level p1 p2) p3) i k = coeff p1 i k mod mq (rmod r i) /\
    (0 <= coeff (InvNTTLazyLvl r level (NTTLvl r level p1 p2) p3) i k < 2 * mq (rmod r i) /\
     eqm (mq (rmod r i)) (coeff (InvNTTLazyLvl r level (NTTLvl r level p1 p2) p3) i k) (coeff p1 i k)) /\
    eqm (mq (rmod r i)) (coeff (NTTLazyLvl r level p1 p2) i k) (coeff (NTTLvl r level p1 p2) i k).
Proof. exact C07_inv_ntt_lemma. Qed.
Print Assumptions C07_inverse_after_forward.

Theorem C07_forward_after_inverse : forall r, built_ring 8 r -> forall level p1 p2 p3,
  (level < length (rmods r))%nat -> words r level (fun q => 2 * q) p1 ->
  forall i k, (i <= level)%nat -> (k < rN r)%nat ->
    coeff (NTTLvl r level (InvNTTLvl r level p1 p2) p3) i k = coeff p1 i k mod mq (rmod r i) /\
    coeff (NTTLvl r level (InvNTTLazyLvl r level p1 p2) p3) i k = coeff p1 i k mod mq (rmod r i).
Proof. exact C07_ntt_inv_lemma. Qed.
Print Assumptions C07_forward_after_inverse.

Example C07_case : built_ring 8 ring16 /\ words ring16 2 (fun q => 2 * q) poly_a /\
  InvNTTLvl ring16 2 (NTTLvl ring16 2 poly_a []) [] = poly_a /\ NTTLvl ring16 2 poly_a [] <> poly_a.
Proof.
  split; [exact ring16_built|]. split; [apply wordsb_ok; vm_compute; reflexivity|].
  split; [vm_compute; reflexivity|vm_compute; discriminate].
Qed.

(** C08. *)
Theorem C08_ntt_product : forall r, built_ring 8 r -> forall level a b t1 t2 t3 t4 t5,
  (level < length (rmods r))%nat -> words r level canon a -> words r level canon b ->
  forall i k, (i <= level)%nat -> (k < rN r)%nat ->
    let A := NTTLvl r level a t1 in
    let B := MFormLvl r level (NTTLvl r level b t2) t3 in
    coeff (InvNTTLvl r level (MulCoeffsMontgomeryLvl r level A B t4) t5) i k =
      pmul (rN r) (co (nth i a [])) (co (nth i b [])) k mod mq (rmod r i).
Proof. exact C08_product_lemma. Qed.
Print Assumptions C08_ntt_product.

Example C08_case : words ring16 2 canon poly_a /\ words ring16 2 canon poly_b /\
  coeff (InvNTTLvl ring16 2 (MulCoeffsMontgomeryLvl ring16 2 (NTTLvl ring16 2 poly_a [])
     (MFormLvl ring16 2 (NTTLvl ring16 2 poly_b []) []) []) []) 2 0 = 1 * 5 - 2 * 2.
Proof.
  split; [apply wordsb_ok; vm_compute; reflexivity|]. split; [apply wordsb_ok; vm_compute; reflexivity|].
  vm_compute. reflexivity.
Qed.

(** C09. *)
Theorem C09_lazy_ranges : forall r, built_ring 8 r -> forall level p1 p2,
  (level < length (rmods r))%nat ->
  (words r level (fun q => 4 * q) p1 ->
   words r level (fun q => 6 * q) (NTTLazyLvl r level p1 p2)) /\
  (words r level (fun q => 2 * q) p1 ->
   words r level (fun q => 2 * q) (InvNTTLazyLvl r level p1 p2) /\
   words r level (fun q => q) (InvNTTLvl r level p1 p2)).
Proof. exact C09_lazy_ranges_lemma. Qed.
Print Assumptions C09_lazy_ranges.

(** The documented range [0, 2q-1] of the lazy forward transform fails on a reduced input. *)
Theorem C09_documented_lazy_range_refuted :
  exists r p, built_ring 8 r /\ words r 0 canon p /\ ~ words r 0 (fun q => 2 * q) (NTTLazyLvl r 0 p []).
Proof.
  exists ring16, poly_b. split; [exact ring16_built|]. split; [apply wordsb_ok; vm_compute; reflexivity|].
  intros [_ H]. destruct (H 0%nat ltac:(lia)) as [_ H']. specialize (H' 3%nat ltac:(vm_compute; lia)).
  destruct H' as [_ H']. revert H'. vm_compute. discriminate.
Qed.
Print Assumptions C09_documented_lazy_range_refuted.
