(** C94: secret keys of every kind, and parameter sets without special moduli. *)
From Flocq Require Import IEEE754.BinarySingleNaN.
From Verif Require Import Word PolySpec Ring RingOps RNSSpec Gadget Frlwe RlweSpec Rlwe Float64 Ckks CkksSpec Codec Sampler SamplerSpec MsgEx Draw DrawSpec SessionEx KeyKinds KeyKindsSpec KeyKindsProofs KeyKindsEx.

(** GenSecretKey, GenSecretKeyGaussian, GenSecretKeyWithDistrib, GenSecretKeyWithHammingWeight: the key holds a secret of the kind, modulo Q and P; only a
    probability can make the sampler panic; the last two leave the samplers of the generator alone. *)
Theorem C94_secret_key : forall rQ rP, ring_pair rQ rP -> forall src k st, samplers_ok st -> (k = Gaussian -> source_ok src /\ errors_fit rQ rP (srBound src)) ->
  match DrawKind src rQ rP k st with
  | Ret (sk, st') => samplers_ok st' /\ (own_generator k -> st' = st) /\ smHw st' = kind_weight (rN rQ) (smHw st) k /\
      exists s, key_of rQ rP sk s /\ of_kind (rN rQ) (smHw st) (srBound src) k s
  | Fail => True
  | Panic => can_panic k
  end.
Proof. exact secret_kind. Qed.
Print Assumptions C94_secret_key.

(** The size of a secret of each kind. *)
Theorem C94_size : forall N h B k s, of_kind N h B k s -> forall i, Z.abs (s i) <= kind_size B k.
Proof. exact kind_bound. Qed.
Print Assumptions C94_size.

(** A Gaussian secret depends only on bytes that nothing drawn before has used. *)
Theorem C94_gaussian_fresh : forall src rQ rP st, samplers_ok st -> reads_fresh smGen (fun src => DrawKind src rQ rP Gaussian) 1024 src st.
Proof. exact gaussian_fresh. Qed.
Print Assumptions C94_gaussian_fresh.

(** With probabilities 1/2 and 1/3 a key is always made, ... *)
Theorem C94_distrib_returns : forall rQ rP, ring_pair rQ rP -> forall src p nb st, (p = half \/ p = third /\ (105 <= srFuel src)%nat) ->
  exists sk, DrawKind src rQ rP (Distrib p nb) st = Ret (sk, st).
Proof. exact distrib_returns. Qed.
Print Assumptions C94_distrib_returns.

(** ... with probability 1 (the zero key) never. *)
Theorem C94_distrib_one_refuted : forall rQ rP, ring_pair rQ rP -> forall src nb st x, DrawKind src rQ rP (Distrib (f64_of_Z 1) nb) st <> Ret x.
Proof. exact distrib_one. Qed.
Print Assumptions C94_distrib_one_refuted.

(** ** Without special moduli *)
Theorem C94_secret_key_without_P : forall rQ, built_ring 9 rQ -> forall L, rN rQ = (2 ^ L)%nat -> forall src k st,
  samplers_ok st -> (k = Gaussian -> source_ok src /\ errors_fit_Q rQ (srBound src)) ->
  match DrawKindQ src rQ k st with
  | Ret (sk, st') => samplers_ok st' /\ (own_generator k -> st' = st) /\ smHw st' = kind_weight (rN rQ) (smHw st) k /\
      exists s, secret rQ L sk s /\ of_kind (rN rQ) (smHw st) (srBound src) k s
  | Fail => True
  | Panic => can_panic k
  end.
Proof. exact secret_Q. Qed.
Print Assumptions C94_secret_key_without_P.

Theorem C94_public_key_without_P : forall rQ, built_ring 9 rQ -> forall L, rN rQ = (2 ^ L)%nat -> forall src sk s st,
  source_ok src -> errors_fit_Q rQ (srBound src) -> samplers_ok st -> secret rQ L sk s ->
  yields (DrawPublicKeyQ src rQ sk st) (fun '(pk, st') => samplers_ok st' /\ smHw st' = smHw st /\ public_key_Q rQ L pk s (srBound src)).
Proof. exact public_Q. Qed.
Print Assumptions C94_public_key_without_P.

(** Encryption under such a public key and decryption, in every combination of domains: the message plus a noise of at most
    N Be + B + N B Bs, B being 6 sigma. *)
Theorem C94_encryption_without_P : forall rQ, built_ring 9 rQ -> forall L, rN rQ = (2 ^ L)%nat -> forall src pk sk s Be Bs pt ptNTT ct0 ct1 ctNTT pool M st,
  let n := rN rQ in let level := Nat.min (length pt - 1) (length ct0 - 1) in
  source_ok src -> errors_fit_Q rQ (srBound src) -> samplers_ok st -> secret rQ L sk s -> public_key_Q rQ L pk s Be -> 0 <= Be -> 0 <= Bs -> pbound n Bs s ->
  rns_dom rQ L level ptNTT pt M -> has_rows n level ct1 -> has_rows n level pool ->
  yields (DrawEncryptQ src rQ pk pt ptNTT ct0 ct1 ctNTT pool st) (fun '((c0, c1), st') => samplers_ok st' /\ length c0 = S level /\ length c1 = S level /\
    exists F, pbound n (Z.of_nat n * Be + srBound src + Z.of_nat n * (srBound src * Bs)) F /\
      forall pt' ptNTT' pool', (level < length pt')%nat -> rns_dom rQ L level ptNTT' (Decrypt rQ sk [c0; c1] ctNTT pt' ptNTT' pool') (padd M F)).
Proof. exact encrypt_Q. Qed.
Print Assumptions C94_encryption_without_P.

(** ** The generator of the fast evaluator: GenSecretKey and GenPublicKey never return. *)
Theorem C94_fast_generator_refuted : forall fuel sk, FastGenSecretKey fuel = Fail /\ FastGenPublicKey fuel sk = Fail.
Proof. exact fast_never. Qed.
Print Assumptions C94_fast_generator_refuted.

(** Degree 32, sigma = 3.2: a key of each kind. *)
Example C94_case : forall k, In k [Plain; Gaussian; Distrib half (fun _ => 85); HammingWeight 7 (fun j => Z.of_nat j mod 11)] ->
  exists sk s st, DrawKind xsrc xQ xP k (newSamplers 10) = Ret (sk, st) /\ key_of xQ xP sk s /\ of_kind 32 10 19 k s.
Proof. exact x_kind_cases. Qed.
(** A key pair without special moduli and an encryption at level 1, with a noise of at most 1235. *)
Example C94_without_P_case : exists sk s pk c0 c1 st1 st2 st3 F,
  DrawKindQ xsrc xQ x_hw (newSamplers 10) = Ret (sk, st1) /\ secret xQ 5 sk s /\ ternary 32 7 s /\
  DrawPublicKeyQ xsrc xQ sk st1 = Ret (pk, st2) /\ public_key_Q xQ 5 pk s 19 /\
  DrawEncryptQ xsrc xQ pk x_pt false (zero_poly xQ) (zero_poly xQ) true (zero_poly xQ) st2 = Ret ((c0, c1), st3) /\
  (forall pt' pool', (1 < length pt')%nat -> rns_repr xQ 1 canon (Decrypt xQ sk [c0; c1] true pt' false pool') (padd x_msg F)) /\ pbound 32 1235 F.
Proof. exact x_without_P. Qed.
