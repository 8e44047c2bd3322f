(** The utilities of a ring: property C92. *)
From Verif Require Import Word PolySpec Ring RingOps RingProofs RNSSpec CI CIEx BasisEx Examples RingUtil RingUtilSpec RingUtilTop.

(** Bit reversal writes word j of the source at the reversed index of the destination, for every modulus; the words past N and the rows past the moduli are kept. *)
Theorem C92_bit_reverse : forall r L p1 p2, built_ring 2 r -> rN r = (2 ^ L)%nat -> fits r p1 -> fits r p2 ->
  length (BitReverse r p1 p2) = length p2 /\
  (forall i, (i < length (rmods r))%nat -> length (nth i (BitReverse r p1 p2) []) = length (nth i p2 []) /\
     (forall j, (j < rN r)%nat -> coeff (BitReverse r p1 p2) i (bitrev L j) = coeff p1 i j) /\
     (forall k, (rN r <= k)%nat -> coeff (BitReverse r p1 p2) i k = coeff p2 i k)) /\
  (forall i, (length (rmods r) <= i)%nat -> nth i (BitReverse r p1 p2) [] = nth i p2 []).
Proof. exact bit_reverse_lemma. Qed.
Print Assumptions C92_bit_reverse.

(** The exchange of words in place gives what the copy gives. *)
Theorem C92_in_place : forall r p, built_ring 2 r -> fits r p -> BitReverseInPlace r p = BitReverse r p p.
Proof. exact in_place_lemma. Qed.
Print Assumptions C92_in_place.

(** Reversing twice gives the words back. *)
Theorem C92_involution : forall r p1 p2 p3, built_ring 2 r -> fits r p1 -> fits r p2 -> fits r p3 ->
  forall i j, (i < length (rmods r))%nat -> (j < rN r)%nat -> coeff (BitReverse r (BitReverse r p1 p2) p3) i j = coeff p1 i j.
Proof. exact involution_lemma. Qed.
Print Assumptions C92_involution.

(** Reversing a polynomial in the NTT domain puts its values at psi, psi^3, psi^5, ... in this order. *)
Theorem C92_natural_order : forall r L level B p out X, built_ring 2 r -> rN r = (2 ^ L)%nat -> rns_ntt r L level B p X -> S level = length (rmods r) -> fits r out ->
  forall i, (i <= level)%nat -> natural_row L (rmod r i) (B (mq (rmod r i))) (nth i (BitReverse r p out) []) X.
Proof. exact natural_lemma. Qed.
Print Assumptions C92_natural_order.

(** And back. *)
Theorem C92_ntt_order : forall r L i B p out X, built_ring 2 r -> rN r = (2 ^ L)%nat -> (i < length (rmods r))%nat ->
  natural_row L (rmod r i) B (nth i p []) X -> length (nth i out []) = rN r ->
  ntt_repr L (rmod r i) B (nth i (BitReverse r p out) []) X.
Proof. exact back_lemma. Qed.
Print Assumptions C92_ntt_order.

(** Rotate by n >= 0 multiplies word j by psi^(2nj); word 0 and the words past N are kept. *)
Theorem C92_rotate : forall r p n p2, built_ring 2 r -> word_rows r p -> 0 <= n ->
  forall i, (i < length (rmods r))%nat -> let out := fst (Rotate r p n p2) in let m := rmod r i in
  length (nth i out []) = length (nth i p []) /\ coeff out i 0 = coeff p i 0 /\ (forall k, (rN r <= k)%nat -> coeff out i k = coeff p i k) /\
  forall j, (0 < j < rN r)%nat -> 0 <= coeff out i j < mq m /\ eqm (mq m) (coeff out i j) (coeff p i j * psi_of m ^ (2 * n * Z.of_nat j)).
Proof. exact rotate_lemma. Qed.
Print Assumptions C92_rotate.

(** On values in natural order this is the product by X^n, up to the constant psi^-n of the modulus. *)
Theorem C92_rotate_monomial : forall r L p n p2, built_ring 2 r -> rN r = (2 ^ L)%nat -> word_rows r p -> 0 <= n ->
  forall i X, (i < length (rmods r))%nat -> let m := rmod r i in natural_row L m (mq m) (nth i p []) X ->
  exists Y, peq (rN r) (mq m) (pscale (psi_of m ^ n) Y) (pmul (rN r) (pmono (rN r) (Z.to_nat n)) X) /\
    natural_row L m (mq m) (nth i (fst (Rotate r p n p2)) []) Y.
Proof. exact rotate_monomial_lemma. Qed.
Print Assumptions C92_rotate_monomial.

(** Between an inverse and a forward transform, and two bit reversals, it shifts the words of every row cyclically by n places. *)
Theorem C92_shift : forall r level p n t1 t2 t3 t4 t5, built_ring 8 r -> S level = length (rmods r) -> words r level canon p -> sized r t1 -> sized r t5 -> 0 <= n ->
  forall i j, (i <= level)%nat -> (j < rN r)%nat ->
  coeff (BitReverse r (NTTLvl r level (fst (Rotate r (InvNTTLvl r level (BitReverse r p t1) t2) n t3)) t4) t5) i j = coeff p i ((j + Z.to_nat n) mod rN r).
Proof. exact galois_shift_lemma. Qed.
Print Assumptions C92_shift.

(** A negative n turns back on the rings of degree 16 and 32 ... *)
Theorem C92_rotate_negative_small : forall r p n p2, built_ring 2 r -> word_rows r p -> (rN r < 64)%nat -> n < 0 ->
  forall i j, (i < length (rmods r))%nat -> (0 < j < rN r)%nat -> let out := fst (Rotate r p n p2) in let m := rmod r i in
  0 <= coeff out i j < mq m /\ eqm (mq m) (coeff out i j * psi_of m ^ (2 * - n * Z.of_nat j)) (coeff p i j).
Proof. exact rotate_negative_small_lemma. Qed.
Print Assumptions C92_rotate_negative_small.

(** ... and does nothing on all the others. *)
Theorem C92_rotate_negative_refuted : forall r p n p2, built_ring 2 r -> word_rows r p -> (64 <= rN r)%nat -> n < 0 ->
  forall i j, (i < length (rmods r))%nat -> (j < rN r)%nat -> eqm (mq (rmod r i)) (coeff (fst (Rotate r p n p2)) i j) (coeff p i j).
Proof. exact rotate_negative_large_lemma. Qed.
Print Assumptions C92_rotate_negative_refuted.

(** The polynomial that is documented to receive the result is not written; the source is. *)
Theorem C92_rotate_destination_refuted : exists r p n p2, built_ring 8 r /\ word_rows r p /\ word_rows r p2 /\ 0 <= n /\
  snd (Rotate r p n p2) = p2 /\ fst (Rotate r p n p2) <> p /\ fst (Rotate r p n p2) <> p2.
Proof. exact rotate_destination_lemma. Qed.
Print Assumptions C92_rotate_destination_refuted.

(** The export of a ring and its import into any ring object give all the tables back; the transformer of the receiver stays. *)
Theorem C92_round_trip : forall fuel N ms t o, NewRingFromType fuel N ms t = inl o ->
  exists r, ro_ring o = Some r /\ forall o', UnmarshalBinary fuel o' (MarshalBinary r) = Done (mkObj (Some r) (ro_ntt o')).
Proof. exact round_trip_lemma. Qed.
Print Assumptions C92_round_trip.

(** Two rings with the same export are the same, type included. *)
Theorem C92_faithful : forall f N ms t o f' N' ms' t' o' r r', NewRingFromType f N ms t = inl o -> NewRingFromType f' N' ms' t' = inl o' ->
  ro_ring o = Some r -> ro_ring o' = Some r' -> MarshalBinary r = MarshalBinary r' -> o = o'.
Proof. exact faithful_lemma. Qed.
Print Assumptions C92_faithful.

(** Yet a ring imported into a fresh object has no transformer: asking for its type, or transforming, panics. *)
Theorem C92_fresh_refuted : forall fuel N ms t o, NewRingFromType fuel N ms t = inl o ->
  exists r o', ro_ring o = Some r /\ UnmarshalBinary fuel new_ring (MarshalBinary r) = Done o' /\ ro_ring o' = Some r /\
    Type_ o = Done t /\ Type_ o' = Panicked /\ forall p1 p2, ObjNTT o' p1 p2 = Panicked.
Proof. exact fresh_lemma. Qed.
Print Assumptions C92_fresh_refuted.

(** A conjugate-invariant ring imported into a standard one transforms differently. *)
Theorem C92_type_refuted : exists o r o' p1 p2, NewRingFromType 1000 16 [193; 257; 449] ConjugateInvariant = inl o /\ ro_ring o = Some r /\
  UnmarshalBinary 1000 (mkObj None (Some Standard)) (MarshalBinary r) = Done o' /\ Type_ o' = Done Standard /\ ObjNTT o' p1 p2 <> ObjNTT o p1 p2.
Proof. exact unmarshal_type_lemma. Qed.
Print Assumptions C92_type_refuted.

(** A ring of degree 16 with three moduli, and a polynomial whose reversal and rotation change it. *)
Example C92_case : built_ring 8 ringP16 /\ word_rows ringP16 ci_a /\ rN ringP16 = (2 ^ 4)%nat /\
  BitReverse ringP16 ci_a (blank 16) <> ci_a /\ BitReverseInPlace ringP16 (BitReverse ringP16 ci_a (blank 16)) = ci_a /\
  fst (Rotate ringP16 ci_a 3 (blank 16)) <> ci_a /\ fst (Rotate ringP16 (fst (Rotate ringP16 ci_a 3 (blank 16))) (-3) (blank 16)) = ci_a.
Proof.
  split; [exact ringP16_built|]. split; [exact ci_a_words|]. split; [reflexivity|].
  split; [vm_compute; discriminate|]. split; [vm_compute; reflexivity|]. split; [vm_compute; discriminate|vm_compute; reflexivity].
Qed.
