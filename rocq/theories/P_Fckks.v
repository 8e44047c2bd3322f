(** Properties C37-C40: the fast evaluator and its decryptor (fckks). *)
From Coq Require Import Reals.
From Verif Require Import Word Arith PolySpec Ring RingOps RNSSpec Automorphism Gadget GadgetSpec Frlwe FrlweSetup FrlweEx RlweSpec Rlwe RlweKeys RlweEx Float64 Ckks CkksSpec CkksRefute Fckks FckksSpec FckksProps FckksDec FckksEx.
Open Scope Z_scope.

(** C37.  MulRelin into a receiver of degree 1 or 2 with any content: the decryption is the product of the
    decryptions plus the noise of the key switching, the level is the lowest of the three, and the words of the
    result are reduced. *)
Theorem C37_mul_relin : forall Qs Ps Ts gamma p ks conv L, fast_setup Qs Ps Ts gamma p ks conv L ->
  let rQ := fpQ p in let rP := fpP p in let n := rN rQ in
  forall level0 level1 lo d B0 B1 rlk square c0 c1 out scratch sk s M0 M1 DQ Be Bs,
  secret rQ L sk s -> ct_ok rQ level0 B0 c0 -> ct_ok rQ level1 B1 c1 -> CkksSpec.fits rQ B0 -> CkksSpec.fits rQ B1 ->
  decrypts rQ L sk c0 M0 -> decrypts rQ L sk c1 M1 ->
  ctDegree c0 = 1%nat -> ctDegree c1 = 1%nat -> (square = true -> c0 = c1) -> (1 <= d <= 2)%nat -> shaped d lo out ->
  let level := Nat.min (Nat.min level0 level1) lo in
  fast_key conv p L rlk s (ppow n s 2) Be -> blocks_below rQ level (maxLevel rP) DQ -> room Qs Ps Ts gamma n level DQ ->
  0 <= Be -> 0 <= Bs -> pbound n Bs s ->
  exists c E, FMulRelin ks rlk square c0 c1 out scratch = Some c /\ ct_ok rQ level canon c /\ ctDegree c = 1%nat /\
    ctScale c = f64_mul (ctScale c0) (ctScale c1) /\ switch_noise rQ rP level (maxLevel rP) DQ Be Bs E /\
    decrypts rQ L sk c (padd (pmul n M0 M1) E).
Proof. exact f_mul_relin. Qed.
Print Assumptions C37_mul_relin.

(** The keys made by GenRelinKey are as C37 requires. *)
Theorem C37_generated_key : forall Qs Ps Ts gamma p ks conv L, fast_setup Qs Ps Ts gamma p ks conv L ->
  let rQ := fpQ p in let rP := fpP p in let lQ := maxLevel rQ in let lP := maxLevel rP in
  forall sk s e E aQ aP poolQP poolQ pool0 pool1 Be,
  sampled rQ rP lQ lP sk s -> randomness_ok rQ rP lQ lP (e 0%nat) E (aQ 0%nat) (aP 0%nat) -> (forall i, pbound (rN rQ) Be (E i)) ->
  fast_key conv p L (GenRelinKey conv p (genSecretKey rQ rP sk) e aQ aP poolQP poolQ pool0 pool1) s (ppow (rN rQ) s 2) Be.
Proof. exact f_gen_relin. Qed.
Print Assumptions C37_generated_key.

(** The product of two ciphertexts of level 2 into a new ciphertext, with a generated key: the noise is at
    most 20. *)
Example C37_applies : exists ks conv rlk c M0 M1 E, fast_setup exQ exP exT exGamma par16 ks conv 4 /\
  FMulRelinNew ks rlk false (e_ct 11 2 1) (e_ct 12 2 1) e_fs = Some c /\
  ct_ok eQ 2 canon c /\ decrypts eQ 4 (fst (genSecretKey eQ eP ex_sk)) (e_ct 11 2 1) M0 /\ decrypts eQ 4 (fst (genSecretKey eQ eP ex_sk)) (e_ct 12 2 1) M1 /\
  decrypts eQ 4 (fst (genSecretKey eQ eP ex_sk)) c (padd (pmul 16 M0 M1) E) /\ forall k, (k < 16)%nat -> Z.abs (E k) <= 20.
Proof.
  destruct ex_setup as (ks & conv & HF).
  pose proof (C37_generated_key exQ exP exT exGamma par16 ks conv 4 HF ex_sk ex_s (fun _ => ex_err) ex_e (fun _ => ex_aQ) (fun _ => ex_aP) [] [] [] [] 1 e_sampled ex_random) as Hk.
  specialize (Hk ltac:(intros i k Hlt; apply ex_e_small; exact Hlt)).
  set (rlk := GenRelinKey _ _ _ _ _ _ _ _ _ _) in Hk. clearbody rlk.
  assert (K0 : ct_ok eQ 2 canon (e_ct 11 2 1)) by (apply e_ctb_ok; vm_compute; reflexivity).
  assert (K1 : ct_ok eQ 2 canon (e_ct 12 2 1)) by (apply e_ctb_ok; vm_compute; reflexivity).
  destruct (e_decrypts _ _ _ K0 e_fits) as [M0 D0]. destruct (e_decrypts _ _ _ K1 e_fits) as [M1 D1].
  destruct (C37_mul_relin exQ exP exT exGamma par16 ks conv 4 HF 2 2 2 2 canon canon rlk false (e_ct 11 2 1) (e_ct 12 2 1)
    (NewCiphertext 16 2 2 f64_zero) e_fs (fst (genSecretKey eQ eP ex_sk)) ex_s M0 M1 18721 1 1
    e_secret K0 K1 e_fits e_fits D0 D1 eq_refl eq_refl) as (c & E & X1 & X2 & X3 & X4 & X5 & X6).
  - discriminate.
  - clear. lia.
  - apply e_shaped. clear. lia.
  - exact Hk.
  - exact e_blocks.
  - apply e_room. clear. apply Nat.le_refl.
  - discriminate.
  - discriminate.
  - exact ex_s_small.
  - exists ks, conv, rlk, c, M0, M1, E. split; [exact HF|]. split.
    { unfold FMulRelinNew. rewrite (f_ks exQ exP exT exGamma par16 ks conv 4 HF). exact X1. }
    split; [exact X2|]. split; [exact D0|]. split; [exact D1|]. split; [exact X6|]. intros k Hkk. specialize (X5 k Hkk). clear - X5.
    change (Z.of_nat (ceil_div (Nat.min (Nat.min 2 2) 2 + 1) (maxLevel (fpP par16) + 1))) with 2 in X5.
    change (Z.of_nat (rN (fpQ par16))) with 16 in X5. change (product (prefix (fpP par16) (maxLevel (fpP par16)))) with 158497 in X5. lia.
Qed.

(** C38.  Rotate into a receiver of degree 1 of the same or a lower level: the decryption is the image of the
    decryption under X -> X^g, where g is the element of the rotation by k (C19: 5^k modulo 2N), plus the noise of
    the key switching. *)
Theorem C38_rotate : forall Qs Ps Ts gamma p ks conv L, fast_setup Qs Ps Ts gamma p ks conv L ->
  let rQ := fpQ p in let rP := fpP p in let n := rN rQ in
  forall level0 level B rtk k c out scratch sk s M DQ Be Bs,
  secret rQ L sk s -> ct_ok rQ level0 B c -> CkksSpec.fits rQ B -> words rQ level0 (fun q => 2 * q) (comp c 1) -> decrypts rQ L sk c M ->
  ctDegree c = 1%nat -> shaped 1 level out -> (level <= level0)%nat ->
  fast_rotation_key conv p L k rtk s Be -> blocks_below rQ level (maxLevel rP) DQ -> room Qs Ps Ts gamma n level DQ ->
  0 <= Be -> 0 <= Bs -> pbound n Bs s ->
  exists c' E, FRotate ks rtk c out scratch = Some c' /\ ct_ok rQ level B c' /\ ctDegree c' = 1%nat /\
    ctScale c' = ctScale out /\ switch_noise rQ rP level (maxLevel rP) DQ Be Bs E /\
    decrypts rQ L sk c' (padd (pauto n (Z.to_nat (GaloisElementForColumnRotationBy rQ k)) M) E).
Proof. exact f_rotate'. Qed.
Print Assumptions C38_rotate.

(** The keys made by GenRotKey(k), for every integer k, are as C38 requires. *)
Theorem C38_generated_key : forall Qs Ps Ts gamma p ks conv L, fast_setup Qs Ps Ts gamma p ks conv L ->
  let rQ := fpQ p in let rP := fpP p in let lQ := maxLevel rQ in let lP := maxLevel rP in
  forall k sk s e E aQ aP poolQP poolQ pool0 pool1 Be,
  sampled rQ rP lQ lP sk s -> randomness_ok rQ rP lQ lP e E aQ aP -> (forall i, pbound (rN rQ) Be (E i)) ->
  fast_rotation_key conv p L k (GenRotKey conv p k (genSecretKey rQ rP sk) e aQ aP poolQP poolQ pool0 pool1) s Be.
Proof. exact f_gen_rot. Qed.
Print Assumptions C38_generated_key.

(** Rotate leaves the scale of the receiver as it was: it is not the scale of the rotated ciphertext (RotateNew
    makes its receiver with the right scale). *)
Theorem C38_scale_refuted : exists Qs Ps Ts gamma p ks conv L sk s rtk k c out scratch M,
  fast_setup Qs Ps Ts gamma p ks conv L /\ secret (fpQ p) L sk s /\ fast_rotation_key conv p L k rtk s 1 /\
  ct_ok (fpQ p) 2 canon c /\ decrypts (fpQ p) L sk c M /\ shaped 1 2 out /\
  exists c', FRotate ks rtk c out scratch = Some c' /\ f64_eq (ctScale c) f64_zero = false /\ f64_eq (ctScale c') (ctScale c) = false.
Proof. exact rotate_scale. Qed.
Print Assumptions C38_scale_refuted.

Theorem C38_new_scale : forall ks rtk c scratch c', FRotateNew ks rtk c scratch = Some c' -> ctScale c' = ctScale c.
Proof. exact rotate_new_scale. Qed.
Print Assumptions C38_new_scale.

(** Rotation by -3 of a ciphertext of level 2 into one of level 1. *)
Example C38_applies : exists ks conv rtk c M E, fast_setup exQ exP exT exGamma par16 ks conv 4 /\
  FRotate ks rtk (e_ct 11 2 1) (NewCiphertext 16 1 1 f64_zero) e_fs = Some c /\
  decrypts eQ 4 (fst (genSecretKey eQ eP ex_sk)) (e_ct 11 2 1) M /\
  decrypts eQ 4 (fst (genSecretKey eQ eP ex_sk)) c (padd (pauto 16 21 M) E) /\ forall k, (k < 16)%nat -> Z.abs (E k) <= 20.
Proof.
  destruct ex_setup as (ks & conv & HF).
  pose proof (C38_generated_key exQ exP exT exGamma par16 ks conv 4 HF (-3) ex_sk ex_s ex_err ex_e ex_aQ ex_aP ([], []) [] [] [] 1 e_sampled ex_random) as Hk.
  specialize (Hk ltac:(intros i k Hlt; apply ex_e_small; exact Hlt)).
  set (rtk := GenRotKey _ _ _ _ _ _ _ _ _ _ _) in Hk. clearbody rtk.
  assert (K0 : ct_ok eQ 2 canon (e_ct 11 2 1)) by (apply e_ctb_ok; vm_compute; reflexivity).
  destruct (e_decrypts _ _ _ K0 e_fits) as [M D0].
  destruct (C38_rotate exQ exP exT exGamma par16 ks conv 4 HF 2 1 canon rtk (-3) (e_ct 11 2 1)
    (NewCiphertext 16 1 1 f64_zero) e_fs (fst (genSecretKey eQ eP ex_sk)) ex_s M 18721 1 1
    e_secret K0 e_fits) as (c & E & X1 & X2 & X3 & X4 & X5 & X6).
  - apply (Examples.wordsb_ok eQ 2). vm_compute. reflexivity.
  - exact D0.
  - reflexivity.
  - apply e_shaped. clear. lia.
  - clear. lia.
  - exact Hk.
  - exact e_blocks1.
  - apply e_room. clear. lia.
  - discriminate.
  - discriminate.
  - exact ex_s_small.
  - exists ks, conv, rtk, c, M, E. split; [exact HF|]. split; [exact X1|]. split; [exact D0|]. split; [exact X6|]. intros k Hkk. specialize (X5 k Hkk). clear - X5.
    change (Z.of_nat (ceil_div (1 + 1) (maxLevel (fpP par16) + 1))) with 1 in X5.
    change (Z.of_nat (rN (fpQ par16))) with 16 in X5. change (product (prefix (fpP par16) (maxLevel (fpP par16)))) with 158497 in X5. lia.
Qed.

(** C39.  SwitchKeys (and SwitchKeysNew) panics on every ciphertext in the NTT domain. *)
Theorem C39_switch_keys_panics : forall ks swk ct0 ctOut scratch, ctNTT ct0 = true ->
  FSwitchKeys ks swk ct0 ctOut scratch = None /\ FSwitchKeysNew ks swk ct0 scratch = None.
Proof. exact (fun ks swk ct0 ctOut s H => conj (f_switch_keys_panics ks swk ct0 ctOut s H) (f_switch_keys_panics ks swk ct0 _ s H)). Qed.
Print Assumptions C39_switch_keys_panics.

(** The ciphertexts of the ckks scheme are in the NTT domain; on a ciphertext marked as coefficients it returns. *)
Example C39_case : ctNTT (NewCiphertext 16 1 2 f64_zero) = true /\
  exists ks conv key c, fast_setup exQ exP exT exGamma par16 ks conv 4 /\ fast_key conv par16 4 key ex_s (ppow 16 ex_s 2) 1 /\
  FSwitchKeysNew ks key coeff_ct e_fs = Some c.
Proof. split; [reflexivity|exact switch_keys_returns]. Qed.

(** C40.  After any history of decryptions, the plaintext that is decoded is the decryption at the lowest level
    among those of the ciphertexts decrypted so far: it has the rows of the moduli of that level only. *)
Theorem C40_decrypt_after_history : forall rQ, built_ring 9 rQ -> forall L, rN rQ = (2 ^ L)%nat ->
  forall cs level B c sk s M, secret rQ L sk s -> ct_ok rQ level B c -> CkksSpec.fits rQ B -> decrypts rQ L sk c M ->
  let '(pt, sc, _) := decrypt_pooled (decrypt_all (NewFDecryptor rQ sk) cs) c in
  let l := Nat.min (lowest rQ cs) level in sc = ctScale c /\ length pt = S l /\ rns_ntt rQ L l canon pt M.
Proof. exact pooled_decrypt. Qed.
Print Assumptions C40_decrypt_after_history.

(** Two ciphertexts that a new decryptor tells apart and that the same decryptor, after decrypting a ciphertext of
    level 0, decrypts to the same plaintext. *)
Theorem C40_history_refuted : exists rQ L sk s c0 c1 c2 M1 M2, built_ring 9 rQ /\ rN rQ = (2 ^ L)%nat /\ secret rQ L sk s /\
  ct_ok rQ 0 canon c0 /\ ct_ok rQ 1 canon c1 /\ ct_ok rQ 1 canon c2 /\ decrypts rQ L sk c1 M1 /\ decrypts rQ L sk c2 M2 /\
  let message cs c := fst (decrypt_pooled (decrypt_all (NewFDecryptor rQ sk) cs) c) in
  fst (message [] c1) <> fst (message [] c2) /\ message [c0] c1 = message [c0] c2.
Proof. exact history_matters. Qed.
Print Assumptions C40_history_refuted.

Example C40_case : lowest eQ [h2; h1; e_ct 4 2 1] = 0%nat /\ lowest eQ [] = 2%nat.
Proof. split; reflexivity. Qed.
