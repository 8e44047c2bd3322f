(** Properties C29-C32 and C49: rlwe key generation, encryption, key switching and decryption. *)
From Verif Require Import Word Arith PolySpec PolyProofs Ring NTT RingOps RNSSpec BasisExt Automorphism Gadget Frlwe GadgetSpec BasisEx FrlweEx RlweSpec Rlwe RlweBase RlweGen RlweEnc RlweTop RlweEx RlweDec.

(** C49.  A small polynomial given modulo q_0 is extended to the moduli of P: the words are the
    coefficients modulo p_i, except that p_i itself may stand for 0 (when the coefficient is -p_i or when
    the word given is q_0 itself). *)
Theorem C49_small_norm_extension : forall rQ rP p levelP out X, built_ring 2 rQ -> built_ring 2 rP -> rN rP = rN rQ -> (levelP < length (rmods rP))%nat ->
  row_repr (rN rQ) (mq (rmod rQ 0)) (mq (rmod rQ 0) + 1) (nth 0 p []) X -> small_poly rQ rP levelP X ->
  rns_repr rP levelP (fun q => q + 1) (ExtendBasisSmallNormAndCenter rQ rP p levelP out) X /\
  kept levelP out (ExtendBasisSmallNormAndCenter rQ rP p levelP out).
Proof. exact extend_small. Qed.
Print Assumptions C49_small_norm_extension.

Example C49_applies : rns_repr eP 1 (fun q => q + 1) (ExtendBasisSmallNormAndCenter eQ eP (ex_err 0) 1 []) (ex_e 0) /\
  prow (ExtendBasisSmallNormAndCenter eQ eP (ex_err 0) 1 []) 1 = [1; 448; 1; 448; 1; 448; 1; 448; 1; 448; 1; 448; 1; 448; 1; 448].
Proof.
  split; [|vm_compute; reflexivity].
  destruct (ex_sampled 2 1 (ex_e 0) ltac:(lia) ltac:(lia) (ex_e_small 0)) as [(_ & _ & H1) H2].
  apply C49_small_norm_extension; [apply (RlweKeys.one_2 eQ), pair16|apply (RlweKeys.one_2 eP), pair16|reflexivity|cbn; lia|apply (H1 0%nat); lia|exact H2].
Qed.

(** The words are in [0, p_i], not in [0, p_i): a zero given as q_0, as the Gaussian sampler and NegLvl
    write it, is turned into p_i. *)
Theorem C49_reduced_words_refuted : exists rQ rP p X, built_ring 9 rQ /\ built_ring 9 rP /\ rN rP = rN rQ /\
  row_repr (rN rQ) (mq (rmod rQ 0)) (mq (rmod rQ 0) + 1) (nth 0 p []) X /\ small_poly rQ rP 0 X /\
  ~ rns_repr rP 0 canon (ExtendBasisSmallNormAndCenter rQ rP p 0 []) X.
Proof. exact extend_unreduced. Qed.
Print Assumptions C49_reduced_words_refuted.

(** C31.  A switching key from sk' to sk: the second polynomials are the uniform ones, and the key is,
    digit by digit, an encryption under s of P times the gadget times s', with the sampled errors. *)
Theorem C31_switching_key : forall rQ rP, ring_pair rQ rP -> forall L, rN rQ = (2 ^ L)%nat ->
  forall levelQ levelP sIn sOut s s' e E aQ aP poolQ,
  (levelQ < length (rmods rQ))%nat -> (levelP < length (rmods rP))%nat ->
  sampled rQ rP (maxLevel rQ) (maxLevel rP) sIn s' -> sampled rQ rP (maxLevel rQ) (maxLevel rP) sOut s ->
  randomness_ok rQ rP levelQ levelP e E aQ aP ->
  let '(key0, key1) := genSwitchingKey rQ rP levelQ levelP (fst (genSecretKey rQ rP sIn)) (genSecretKey rQ rP sOut) e aQ aP poolQ in
  (forall i, (i < ceil_div (levelQ + 1) (levelP + 1))%nat -> nth i key1 ([], []) = (aQ i, aP i)) /\
  switching_key_ok rQ rP L levelQ levelP key0 key1 E s s'.
Proof. exact generated_switching_key. Qed.
Print Assumptions C31_switching_key.

(** The keys of the relinearization key: the j-th switches from s^(j+2) to s. *)
Theorem C31_relinearization_key : forall rQ rP, ring_pair rQ rP -> forall L, rN rQ = (2 ^ L)%nat ->
  forall sk s maxDegree e E aQ aP poolQP poolQ,
  let lQ := maxLevel rQ in let lP := maxLevel rP in
  sampled rQ rP lQ lP sk s -> (forall j, (j < maxDegree)%nat -> randomness_ok rQ rP lQ lP (e j) (E j) (aQ j) (aP j)) ->
  let rlk := GenRelinearizationKey rQ rP (genSecretKey rQ rP sk) maxDegree e aQ aP poolQP poolQ in
  length rlk = maxDegree /\
  forall j, (j < maxDegree)%nat -> let '(key0, key1) := nth j rlk ([], []) in
    switching_key_ok rQ rP L lQ lP key0 key1 (E j) s (ppow (rN rQ) s (j + 2)).
Proof. exact generated_relin_key. Qed.
Print Assumptions C31_relinearization_key.

(** The key generated for the odd element g switches from s to s(X^g). *)
Theorem C31_rotation_key : forall rQ rP, ring_pair rQ rP -> forall L, rN rQ = (2 ^ L)%nat ->
  forall sk s g e E aQ aP poolQP poolQ,
  let lQ := maxLevel rQ in let lP := maxLevel rP in
  0 <= g -> Z.odd g = true -> sampled rQ rP lQ lP sk s -> randomness_ok rQ rP lQ lP e E aQ aP ->
  let '(key0, key1) := genrotKey rQ rP (genSecretKey rQ rP sk) g e aQ aP poolQP poolQ in
  switching_key_ok rQ rP L lQ lP key0 key1 E (pauto (rN rQ) (Z.to_nat g) s) s.
Proof. exact generated_rot_key. Qed.
Print Assumptions C31_rotation_key.

Definition ex_swk : list (rows * rows) * list (rows * rows) :=
  genSwitchingKey eQ eP 2 1 (fst (genSecretKey eQ eP ex_sk')) (genSecretKey eQ eP ex_sk) ex_err ex_aQ ex_aP [].
Example C31_applies : switching_key_ok eQ eP 4 2 1 (fst ex_swk) (snd ex_swk) ex_e ex_s ex_s'.
Proof.
  pose proof (C31_switching_key eQ eP pair16 4 eq_refl 2 1 ex_sk' ex_sk ex_s ex_s' ex_err ex_e ex_aQ ex_aP []) as H. fold ex_swk in H.
  destruct ex_swk as [k0 k1]. apply H; [cbn; lia|cbn; lia| | |exact ex_random].
  - apply ex_sampled; [cbn; lia|cbn; lia|exact ex_s'_small].
  - apply ex_sampled; [cbn; lia|cbn; lia|exact ex_s_small].
Qed.
Example C31_relin_applies : let rlk := GenRelinearizationKey eQ eP (genSecretKey eQ eP ex_sk) 3 (fun j i => ex_err (i + j)) (fun _ => ex_aQ) (fun _ => ex_aP) [] [] in
  switching_key_ok eQ eP 4 2 1 (fst (nth 1 rlk ([], []))) (snd (nth 1 rlk ([], []))) (fun i => ex_e (i + 1)) ex_s (ppow 16 ex_s 3).
Proof.
  cbv zeta. destruct (C31_relinearization_key eQ eP pair16 4 eq_refl ex_sk ex_s 3 (fun j i => ex_err (i + j)) (fun j i => ex_e (i + j)) (fun _ => ex_aQ) (fun _ => ex_aP) [] []) as [_ H].
  - apply ex_sampled; [cbn; lia|cbn; lia|exact ex_s_small].
  - intros j Hj i Hi. split; [apply ex_sampled; [cbn; lia|cbn; lia|apply ex_e_small]|apply (ex_random i Hi)].
  - specialize (H 1%nat ltac:(lia)). destruct (nth 1 _ _) as [k0 k1]. exact H.
Qed.
Example C31_rot_applies : let key := genrotKey eQ eP (genSecretKey eQ eP ex_sk) 5 ex_err ex_aQ ex_aP ([], []) [] in
  switching_key_ok eQ eP 4 2 1 (fst key) (snd key) ex_e (pauto 16 5 ex_s) ex_s.
Proof.
  cbv zeta. pose proof (C31_rotation_key eQ eP pair16 4 eq_refl ex_sk ex_s 5 ex_err ex_e ex_aQ ex_aP ([], []) [] ltac:(lia) eq_refl) as H.
  destruct (genrotKey _ _ _ _ _ _ _ _ _) as [k0 k1]. apply H; [|exact ex_random]. apply ex_sampled; [cbn; lia|cbn; lia|exact ex_s_small].
Qed.

(** C32.  Key switching at any level, in either domain, with a key generated at this level or a higher
    one: C0 + C1 s = A s' + E modulo the moduli of Q, where P E = sum_i d_i e_i - rho0 - rho1 s; the d_i are
    the digits of A; DQ bounds the products of the blocks of moduli. *)
Theorem C32_key_switching : forall rQ rP, ring_pair rQ rP -> forall L, rN rQ = (2 ^ L)%nat ->
  forall levelK levelQ levelP cx isNTT A (key0 key1 : list (rows * rows)) poolInv c2 pool1P pool2P p0 p1 e s s' DQ Be Bs,
  let n := rN rQ in let Qs := prefix rQ levelQ in let Ps := prefix rP levelP in let nb := ceil_div (levelQ + 1) (levelP + 1) in
  (levelQ <= levelK)%nat -> (levelK < length (rmods rQ))%nat -> (levelP < length (rmods rP))%nat -> (levelP < 18)%nat ->
  rns_dom rQ L levelQ isNTT cx A -> switching_key_ok rQ rP L levelK levelP key0 key1 e s s' ->
  (forall i, (i < nb)%nat -> product (block_of (levelP + 1) i Qs) <= DQ) ->
  0 <= Be -> 0 <= Bs -> (forall i, (i < nb)%nat -> pbound n Be (e i)) -> pbound n Bs s ->
  exists c0 c1 C0 C1 d rho0 rho1 E,
    SwitchKeysInPlace rQ rP levelQ levelP cx isNTT key0 key1 poolInv c2 pool1P pool2P p0 p1 = Some (c0, c1) /\
    rns_dom rQ L levelQ isNTT c0 C0 /\ rns_dom rQ L levelQ isNTT c1 C1 /\ kept levelQ p0 c0 /\ kept levelQ p1 c1 /\
    switched n nb levelQ Qs Ps C0 C1 A s s' d e rho0 rho1 E /\
    (forall i k, (i < nb)%nat -> (k < n)%nat -> lift_of (product (block_of (levelP + 1) i Qs)) (A k) (d i k)) /\
    (forall k, (k < n)%nat -> 2 ^ 42 * (product Ps * Z.abs (E k))
       <= (2 ^ 42 + 1) * (Z.of_nat nb * (Z.of_nat n * (DQ * Be)) + product Ps * (1 + Z.of_nat n * Bs))).
Proof. exact key_switching. Qed.
Print Assumptions C32_key_switching.

(** Decomposing first and switching afterwards gives the same ciphertext, bit for bit, whatever the
    scratch polynomials hold. *)
Theorem C32_hoisted : forall rQ rP levelQ levelP cx key0 key1 poolInv c2 pools p0 p1 pool1P pool2P,
  KeyswitchHoisted rQ rP levelQ levelP (DecomposeNTT rQ rP levelQ levelP (levelP + 1) cx true poolInv pools) key0 key1 p0 p1 pool1P pool2P =
  SwitchKeysInPlace rQ rP levelQ levelP cx true key0 key1 poolInv c2 pool1P pool2P p0 p1.
Proof. exact hoisted_same. Qed.
Print Assumptions C32_hoisted.

(** The key of C31_applies (three moduli) switches at level 1 with an error of at most 20. *)
Example C32_applies : exists c0 c1 C0 C1 E,
  SwitchKeysInPlace eQ eP 1 1 (res_rows eQ 1 ex_A) false (fst ex_swk) (snd ex_swk) [] ([], []) [] [] [] [] = Some (c0, c1) /\
  rns_repr eQ 1 canon c0 C0 /\ rns_repr eQ 1 canon c1 C1 /\
  (forall j, (j <= 1)%nat -> peq 16 (nth j [97; 193] 0) (padd C0 (pmul 16 C1 ex_s)) (padd (pmul 16 ex_A ex_s') E)) /\
  forall k, (k < 16)%nat -> Z.abs (E k) <= 20.
Proof.
  destruct (C32_key_switching eQ eP pair16 4 eq_refl 2 1 1 (res_rows eQ 1 ex_A) false ex_A (fst ex_swk) (snd ex_swk) [] ([], []) [] [] [] [] ex_e ex_s ex_s' 18721 1 1)
    as (c0 & c1 & C0 & C1 & d & rho0 & rho1 & E & X1 & X2 & X3 & _ & _ & X4 & _ & X5).
  - lia.
  - cbn. lia.
  - cbn. lia.
  - lia.
  - apply (res_rows_repr 2); [lia|apply (RlweKeys.one_2 eQ), pair16|cbn; lia].
  - exact C31_applies.
  - intros i Hi. change (ceil_div (1 + 1) (1 + 1)) with 1%nat in Hi. destruct i as [|i]; [unfold Z.le; vm_compute; discriminate|lia].
  - lia.
  - lia.
  - intros i _ k Hk. apply ex_e_small. exact Hk.
  - exact ex_s_small.
  - exists c0, c1, C0, C1, E. split; [exact X1|]. split; [exact X2|]. split; [exact X3|]. split; [exact (proj1 X4)|].
    intros k Hk. specialize (X5 k Hk). clear - X5. change (ceil_div (1 + 1) (1 + 1)) with 1%nat in X5. change (rN eQ) with 16%nat in X5.
    change (product (prefix eP 1)) with 158497 in X5. change (Z.of_nat 1) with 1 in X5. change (Z.of_nat 16) with 16 in X5. lia.
Qed.

(** C29.  Decrypting gives the reduced residues of c_0 + c_1 s + ... + c_d s^d, for every degree d when the
    ciphertext is in the NTT domain and for d mod 8 <> 7 otherwise. *)
Theorem C29_decryption : forall rQ, built_ring 9 rQ -> forall L, rN rQ = (2 ^ L)%nat ->
  forall level ct ctNTT sk C s, (level < length (rmods rQ))%nat ->
  (forall j, (j < length ct)%nat -> rns_dom rQ L level ctNTT (nth j ct []) (C j)) ->
  rns_ntt rQ L level canon sk (pscale W s) ->
  forall pt ptNTT pool, (0 < length ct)%nat -> level = Nat.min (length (nth 0 ct []) - 1) (length pt - 1) ->
  let out := Decrypt rQ sk ct ctNTT pt ptNTT pool in
  let V := psum (length ct) (fun i => pmul (rN rQ) (C i) (ppow (rN rQ) s i)) in
  length out = S level /\
  (ctNTT = true \/ (length ct - 1) mod 8 <> 7 -> rns_dom rQ L level ptNTT out V)%nat /\
  (ptNTT = true -> rns_ntt rQ L level (fun q => 6 * q) out V).
Proof. exact decrypt_correct. Qed.
Print Assumptions C29_decryption.

(** For ciphertexts of degree 7 given by coefficients, the reduction before the inverse transform is
    skipped and the plaintext can be wrong (here modulo 97, one coefficient is 41 instead of 40). *)
Theorem C29_degree_seven_refuted : exists rQ, built_ring 9 rQ /\ exists L level sk s ct C,
  rN rQ = (2 ^ L)%nat /\ length ct = 8%nat /\ rns_ntt rQ L level canon sk (pscale W s) /\
  (forall j, (j < 8)%nat -> rns_dom rQ L level false (nth j ct []) (C j)) /\
  ~ rns_repr rQ level (fun _ => W) (Decrypt rQ sk ct false (repeat [] (S level)) false []) (psum 8 (fun i => pmul (rN rQ) (C i) (ppow (rN rQ) s i))).
Proof. exact decrypt_degree_seven. Qed.
Print Assumptions C29_degree_seven_refuted.

(** A ciphertext of degree 2. *)
Example C29_applies : rns_repr eQ 2 canon (Decrypt eQ (fst (genSecretKey eQ eP ex_sk)) [res_rows eQ 2 ex_A; res_rows eQ 2 ex_M; res_rows eQ 2 (ex_b1 3)] false [[]; []; []] false [])
  (psum 3 (fun i => pmul 16 (nth i [ex_A; ex_M; ex_b1 3] pzero) (ppow 16 ex_s i))).
Proof.
  refine (proj1 (proj2 (C29_decryption eQ (proj1 pair16) 4 eq_refl 2 [res_rows eQ 2 ex_A; res_rows eQ 2 ex_M; res_rows eQ 2 (ex_b1 3)] false (fst (genSecretKey eQ eP ex_sk))
    (fun i => nth i [ex_A; ex_M; ex_b1 3] pzero) ex_s _ _ _ [[]; []; []] false [] _ _)) _).
  - cbn. lia.
  - intros j Hj. cbn [length] in Hj. do 3 (destruct j as [|j]; [apply (res_rows_repr 2); [lia|apply (RlweKeys.one_2 eQ), pair16|cbn; lia]|]). lia.
  - apply (RlweKeys.secret_key eQ eP 4 pair16 eq_refl ex_sk ex_s). apply ex_sampled; [cbn; lia|cbn; lia|exact ex_s_small].
  - cbn. lia.
  - reflexivity.
  - right. cbn. lia.
Qed.

(** C30.  Public-key encryption followed by decryption, for every combination of domains: the message
    plus a noise F with p F = u e + e0 + e1 s - rho0 - rho1 s, where p is the first special modulus. *)
Theorem C30_public_key_encryption : forall rQ rP, ring_pair rQ rP -> forall L, rN rQ = (2 ^ L)%nat ->
  forall sRows s eRows e aQ aP,
  let lQ := maxLevel rQ in let lP := maxLevel rP in let n := rN rQ in let p := mq (rmod rP 0) in
  sampled rQ rP lQ lP sRows s -> sampled rQ rP lQ lP eRows e -> words rQ lQ canon aQ -> words rP lP canon aP ->
  let sk := genSecretKey rQ rP sRows in let pk := GenPublicKey rQ rP sk eRows aQ aP in
  forall pt ptNTT ct0 ct1 ctNTT u e0 e1 pool poolP0 poolP1 U E0 E1 M,
  let level := Nat.min (length pt - 1) (length ct0 - 1) in
  rns_dom rQ L level ptNTT pt M ->
  sampled rQ rP level 0 u U -> sampled rQ rP level 0 e0 E0 -> sampled rQ rP level 0 e1 E1 ->
  let '(c0, c1) := pkEncrypt rQ rP pk pt ptNTT ct0 ct1 ctNTT u e0 e1 pool poolP0 poolP1 in
  length c0 = S level /\ length c1 = S level /\
  exists F rho0 rho1, fresh_noise n p U e E0 E1 s rho0 rho1 F /\
    (forall pt' ptNTT' pool', (level < length pt')%nat ->
       rns_dom rQ L level ptNTT' (Decrypt rQ (fst sk) [c0; c1] ctNTT pt' ptNTT' pool') (padd M F)) /\
    (forall Bu Be B0 B1 Bs, 0 <= Bu -> 0 <= Be -> 0 <= B1 -> 0 <= Bs ->
       pbound n Bu U -> pbound n Be e -> pbound n B0 E0 -> pbound n B1 E1 -> pbound n Bs s ->
       forall k, (k < n)%nat -> 2 ^ 42 * (p * Z.abs (F k))
         <= 2 ^ 42 * (Z.of_nat n * (Bu * Be) + B0 + Z.of_nat n * (B1 * Bs)) + (2 ^ 42 + 1) * (p * (1 + Z.of_nat n * Bs))).
Proof. exact pk_encrypt_decrypt. Qed.
Print Assumptions C30_public_key_encryption.

(** Without special moduli the noise is u e + e0 + e1 s. *)
Theorem C30_public_key_encryption_without_P : forall rQ, built_ring 9 rQ -> forall L, rN rQ = (2 ^ L)%nat ->
  forall sk pk pt ptNTT ct0 ct1 ctNTT u e0 e1 pool s b0 b1 e U E0 E1 M,
  let n := rN rQ in let level := Nat.min (length pt - 1) (length ct0 - 1) in
  rns_ntt rQ L level canon sk (pscale W s) -> rns_ntt rQ L level canon (fst pk) b0 -> rns_ntt rQ L level canon (snd pk) b1 ->
  (forall q, In q (prefix rQ level) -> peq n q (padd b0 (pmul n b1 s)) e) ->
  rns_dom rQ L level ptNTT pt M ->
  rns_repr rQ level (fun q => q + 1) u U -> rns_repr rQ level (fun q => q + 1) e0 E0 -> rns_repr rQ level (fun q => q + 1) e1 E1 ->
  let '(c0, c1) := pkEncryptNoP rQ pk pt ptNTT ct0 ct1 ctNTT u e0 e1 pool in
  length c0 = S level /\ length c1 = S level /\
  forall pt' ptNTT' pool', (level < length pt')%nat ->
    rns_dom rQ L level ptNTT' (Decrypt rQ sk [c0; c1] ctNTT pt' ptNTT' pool') (padd M (padd (padd (pmul n U e) E0) (pmul n E1 s))).
Proof. exact pk_encrypt_nop_decrypt. Qed.
Print Assumptions C30_public_key_encryption_without_P.

(** With the secret key the noise is the sampled error; the second polynomial is the uniform one. *)
Theorem C30_secret_key_encryption : forall rQ, built_ring 9 rQ -> forall L, rN rQ = (2 ^ L)%nat ->
  forall sk pt ptNTT ct0 ct1 ctNTT e s E M,
  let n := rN rQ in let level := Nat.min (length pt - 1) (length ct0 - 1) in
  rns_ntt rQ L level canon sk (pscale W s) -> words rQ level canon ct1 ->
  rns_dom rQ L level ptNTT pt M -> rns_repr rQ level (fun q => q + 1) e E ->
  let '(c0, c1) := skEncrypt rQ sk pt ptNTT ct0 ct1 ctNTT e in
  length c0 = S level /\ length c1 = S level /\
  (ctNTT = true -> c1 = firstn (S level) ct1) /\
  forall pt' ptNTT' pool', (level < length pt')%nat ->
    rns_dom rQ L level ptNTT' (Decrypt rQ sk [c0; c1] ctNTT pt' ptNTT' pool') (padd M E).
Proof. exact sk_encrypt_decrypt. Qed.
Print Assumptions C30_secret_key_encryption.

(** A message at level 1 encrypted under the public key with u, e, e0, e1 of coefficients +-1: the noise
    is at most 18. *)
Example C30_applies : let sk := genSecretKey eQ eP ex_sk in
  let '(c0, c1) := pkEncrypt eQ eP (GenPublicKey eQ eP sk (ex_err 0) (ex_aQ 0) (ex_aP 0)) (res_rows eQ 1 ex_M) false [[]; []; []] [[]; []; []] true
    (res_rows eQ 1 ex_s') (res_rows eQ 1 (ex_e 1)) (res_rows eQ 1 (ex_e 2)) [] [] [] in
  exists F, rns_repr eQ 1 canon (Decrypt eQ (fst sk) [c0; c1] true [[]; []] false []) (padd ex_M F) /\ forall k, (k < 16)%nat -> Z.abs (F k) <= 18.
Proof.
  cbv zeta.
  pose proof (C30_public_key_encryption eQ eP pair16 4 eq_refl ex_sk ex_s (ex_err 0) (ex_e 0) (ex_aQ 0) (ex_aP 0)) as H. cbv zeta in H.
  specialize (H ltac:(apply ex_sampled; [cbn; lia|cbn; lia|exact ex_s_small])). specialize (H ltac:(apply ex_sampled; [cbn; lia|cbn; lia|apply ex_e_small])).
  specialize (H ltac:(apply ex_words; [apply pair16|cbn; lia])). specialize (H ltac:(apply ex_words; [apply pair16|cbn; lia])).
  specialize (H (res_rows eQ 1 ex_M) false [[]; []; []] [[]; []; []] true (res_rows eQ 1 ex_s') (res_rows eQ 1 (ex_e 1)) (res_rows eQ 1 (ex_e 2)) [] [] [] ex_s' (ex_e 1) (ex_e 2) ex_M).
  change (Nat.min (length (res_rows eQ 1 ex_M) - 1) (@length (list Z) [[]; []; []] - 1)) with 1%nat in H.
  specialize (H ltac:(apply (res_rows_repr 2); [lia|apply (RlweKeys.one_2 eQ), pair16|cbn; lia])).
  specialize (H ltac:(apply ex_sampled; [lia|lia|exact ex_s'_small])). specialize (H ltac:(apply ex_sampled; [lia|lia|apply ex_e_small])).
  specialize (H ltac:(apply ex_sampled; [lia|lia|apply ex_e_small])).
  destruct (pkEncrypt _ _ _ _ _ _ _ _ _ _ _ _ _ _) as [c0 c1]. destruct H as (_ & _ & F & r0 & r1 & _ & H1 & H2).
  exists F. split; [apply (H1 [[]; []] false []); cbn; lia|]. intros k Hk.
  specialize (H2 1 1 1 1 1 ltac:(lia) ltac:(lia) ltac:(lia) ltac:(lia) ex_s'_small (ex_e_small 0) (ex_e_small 1) (ex_e_small 2) ex_s_small k Hk).
  clear - H2. change (mq (rmod eP 0)) with 353 in H2. change (rN eQ) with 16%nat in H2. change (Z.of_nat 16) with 16 in H2. lia.
Qed.
