(** C96: encryption with a secret key from a polynomial shared by several parties. *)
From Flocq Require Import IEEE754.Binary IEEE754.Bits IEEE754.BinarySingleNaN.
From Verif Require Import Word PolySpec Ring RingOps RNSSpec Automorphism Gadget GadgetSpec Frlwe RlweSpec Rlwe Float64 Codec Sampler SamplerSpec Ckks CkksSpec MsgEx Draw DrawSpec SessionEx KeyKinds KeyKindsSpec KeyKindsEx Crp CrpProofs CrpEx.
Open Scope Z_scope.

(** EncryptFromCRP into any receiver: the second polynomial is the shared one, taken as being in the NTT domain, and decryption gives the
    message with the error sampled alone.  The level is the smaller of the two, the scale that of the plaintext; the domain and further
    polynomials are those of the receiver. *)
Theorem C96_decrypts : forall rQ, built_ring 9 rQ -> forall L, rN rQ = (2 ^ L)%nat ->
  forall src sk s pt ptNTT scale crp ct pool st M, let n := rN rQ in let level := Nat.min (length pt - 1) (ctLevel ct) in
  source_ok src -> errors_fit_Q rQ (srBound src) -> samplers_ok st -> secret rQ L sk s -> rns_dom rQ L level ptNTT pt M ->
  words rQ level canon crp -> (level < length (comp ct 1))%nat -> has_rows n level pool ->
  yields (EncryptFromCRP src rQ (SkKey sk) pt ptNTT scale crp ct pool st) (fun '(c, st') => samplers_ok st' /\
    ctScale c = scale /\ ctNTT c = ctNTT ct /\ ctLevel c = level /\ length (comp c 1) = S level /\ skipn 2 (ctV c) = skipn 2 (ctV ct) /\
    (ctNTT ct = true -> comp c 1 = firstn (S level) crp) /\
    exists E, (exists e, read_gauss src rQ level pool st = Ret (e, st') /\ rns_repr rQ level (fun q => q + 1) e E) /\ (forall k, Z.abs (E k) <= srBound src) /\
      (forall A, rns_ntt rQ L level canon crp A -> rns_dom rQ L level (ctNTT ct) (comp c 0) (psub (padd M E) (pmul n A s)) /\ rns_dom rQ L level (ctNTT ct) (comp c 1) A) /\
      forall pt' ptNTT' pool', (level < length pt')%nat -> rns_dom rQ L level ptNTT' (Decrypt rQ sk [comp c 0; comp c 1] (ctNTT c) pt' ptNTT' pool') (padd M E)).
Proof. exact from_crp. Qed.
Print Assumptions C96_decrypts.

(** EncryptFromCRPNew: a ciphertext of degree 1 at the level and the scale of the plaintext. *)
Theorem C96_new : forall rQ, built_ring 9 rQ -> forall L, rN rQ = (2 ^ L)%nat ->
  forall src sk s pt ptNTT scale crp pool st M level, length pt = S level ->
  source_ok src -> errors_fit_Q rQ (srBound src) -> samplers_ok st -> secret rQ L sk s -> rns_dom rQ L level ptNTT pt M ->
  words rQ level canon crp -> has_rows (rN rQ) level pool ->
  yields (EncryptFromCRPNew src rQ (SkKey sk) pt ptNTT scale crp pool st) (fun '(c, st') => samplers_ok st' /\
    ctScale c = scale /\ ctNTT c = true /\ ctLevel c = level /\ ctDegree c = 1%nat /\ comp c 1 = firstn (S level) crp /\
    exists E, (exists e, read_gauss src rQ level pool st = Ret (e, st') /\ rns_repr rQ level (fun q => q + 1) e E) /\ (forall k, Z.abs (E k) <= srBound src) /\
      (forall A, rns_ntt rQ L level canon crp A -> rns_ntt rQ L level canon (comp c 0) (psub (padd M E) (pmul (rN rQ) A s))) /\
      forall pt' ptNTT' pool', (level < length pt')%nat -> rns_dom rQ L level ptNTT' (Decrypt rQ sk (ctV c) true pt' ptNTT' pool') (padd M E)).
Proof. exact from_crp_new. Qed.
Print Assumptions C96_new.

(** Encryptions of two parties from the same polynomial share the second polynomial; with the sum of the first ones it decrypts, under the
    sum of the secrets, to the sum of the messages with both errors.  Two encryptions from the same polynomial under the same key show the
    difference of the messages, up to the errors, to everybody. *)
Theorem C96_same_crp : forall rQ, built_ring 9 rQ -> forall L, rN rQ = (2 ^ L)%nat ->
  forall src src' sk sk' s s' pt pt' ptNTT ptNTT' scale scale' crp pool pool' st st' M M' level c c' st1 st1', let n := rN rQ in
  length pt = S level -> length pt' = S level -> source_ok src -> source_ok src' -> errors_fit_Q rQ (srBound src) -> errors_fit_Q rQ (srBound src') ->
  samplers_ok st -> samplers_ok st' -> secret rQ L sk s -> secret rQ L sk' s' -> rns_dom rQ L level ptNTT pt M -> rns_dom rQ L level ptNTT' pt' M' ->
  words rQ level canon crp -> has_rows n level pool -> has_rows n level pool' ->
  EncryptFromCRPNew src rQ (SkKey sk) pt ptNTT scale crp pool st = Ret (c, st1) -> EncryptFromCRPNew src' rQ (SkKey sk') pt' ptNTT' scale' crp pool' st' = Ret (c', st1') ->
  comp c 1 = comp c' 1 /\
  (exists E, (forall k, Z.abs (E k) <= srBound src + srBound src') /\ forall both out p pN pl, secret rQ L both (padd s s') -> (level < length p)%nat -> length out = S level ->
    rns_dom rQ L level pN (Decrypt rQ both [AddLvl rQ level (comp c 0) (comp c' 0) out; comp c 1] true p pN pl) (padd (padd M M') E)) /\
  (sk' = sk -> s' = s -> exists E, (forall k, Z.abs (E k) <= srBound src + srBound src') /\ forall out, rns_ntt rQ L level canon (SubLvl rQ level (comp c 0) (comp c' 0) out) (padd (psub M M') E)).
Proof. exact same_crp. Qed.
Print Assumptions C96_same_crp.

(** The sum of the keys is a key of the sum of the secrets. *)
Theorem C96_key_sum : forall rQ, built_ring 9 rQ -> forall L, rN rQ = (2 ^ L)%nat -> forall sk sk' s s' out,
  secret rQ L sk s -> secret rQ L sk' s' -> secret rQ L (AddLvl rQ (maxLevel rQ) sk sk' out) (padd s s').
Proof. exact secret_sum. Qed.
Print Assumptions C96_key_sum.

(** An encryptor with a public key panics. *)
Theorem C96_public_key : forall src rQ pk pt ptNTT scale crp ct pool st,
  EncryptFromCRP src rQ (PkKey pk) pt ptNTT scale crp ct pool st = Codec.Panic /\ EncryptFromCRPNew src rQ (PkKey pk) pt ptNTT scale crp pool st = Codec.Panic.
Proof. intros. split; reflexivity. Qed.
Print Assumptions C96_public_key.

(** Refuted: that the message is hidden whenever the call succeeds.  A shared polynomial with fewer rows than the plaintext is accepted; in
    the rows it lacks the second polynomial is 0 and the first one is the message with the error, whatever the key. *)
Theorem C96_short_crp_refuted : forall rQ, built_ring 9 rQ -> forall L, rN rQ = (2 ^ L)%nat ->
  forall src sk s pt ptNTT scale crp pool st M level, length pt = S level ->
  source_ok src -> errors_fit_Q rQ (srBound src) -> samplers_ok st -> secret rQ L sk s -> rns_dom rQ L level ptNTT pt M -> has_rows (rN rQ) level pool ->
  (0 < length crp <= level)%nat -> words rQ (length crp - 1) canon crp ->
  yields (EncryptFromCRPNew src rQ (SkKey sk) pt ptNTT scale crp pool st) (fun '(c, _) => ctLevel c = level /\
    exists E, (forall k, Z.abs (E k) <= srBound src) /\ forall i, (length crp <= i <= level)%nat ->
      nth i (comp c 1) [] = repeat 0 (rN rQ) /\ ntt_repr L (rmod rQ i) (mq (rmod rQ i)) (nth i (comp c 0) []) (padd M E)).
Proof. exact short_crp. Qed.
Print Assumptions C96_short_crp_refuted.

(** Two parties with secrets of weights 7 and 5, at level 1. *)
Example C96_case : exists sk sk' s s' c c' E, two_parties xsrc xQ x_hw x_hw5 x_pt2 x_pt2 (f64_of_Z 1) x_crp (zero_poly xQ) (newSamplers 10) = Ret ((sk, sk'), (c, c')) /\
  secret xQ 5 sk s /\ ternary 32 7 s /\ secret xQ 5 sk' s' /\ ternary 32 5 s' /\ comp c 1 = comp c' 1 /\ (forall k, Z.abs (E k) <= 19 + 19) /\
  forall out out' p pl, (1 < length p)%nat -> length out' = 2%nat ->
  rns_repr xQ 1 canon (Decrypt xQ (AddLvl xQ (maxLevel xQ) sk sk' out) [AddLvl xQ 1 (comp c 0) (comp c' 0) out'; comp c 1] true p false pl) (padd (padd x_msg x_msg) E).
Proof. exact x_parties. Qed.
(** A shared polynomial with one row, a plaintext with two: the second row shows the message. *)
Example C96_leak_case : exists c E, leak xsrc xQ x_hw x_pt2 (f64_of_Z 1) (firstn 1 x_crp) (zero_poly xQ) (newSamplers 10) = Ret c /\ (forall k, Z.abs (E k) <= 19) /\
  nth 1 (comp c 1) [] = repeat 0 32 /\ ntt_repr 5 (rmod xQ 1) (mq (rmod xQ 1)) (nth 1 (comp c 0) []) (padd x_msg E).
Proof. exact x_leak. Qed.
