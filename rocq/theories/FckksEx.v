(** Concrete keys and ciphertexts for the examples of fckks: the parameters of FrlweEx.v (degree 16,
    Q = 97*193*257, P = 353*449). *)
From Verif Require Import Word Arith PolySpec PolyProofs Ring RingProofs NTT RingOps RNSSpec RowProofs OpsProofs OpsProps BasisExt BasisProps Automorphism AutoProps Gadget Frlwe FrlweSetup GadgetSpec Repr FrlweProps FrlweTop Examples BasisEx FrlweEx RlweSpec Rlwe RlweKeys RlweTop RlweEx Float64 Ckks CkksSpec CkksBase CkksConst CkksOps CkksRefute Fckks FckksSpec FckksProps FckksDec.

Lemma ex_setup : exists ks conv, fast_setup exQ exP exT exGamma par16 ks conv 4.
Proof.
  destruct (fast_constructors 1000 16 exQ exP exT exGamma par16 sizes16 par16_built) as [[ks HK] [conv HC]].
  exists ks, conv, 1000%nat, 16. split; [exact sizes16|]. split; [exact par16_built|]. split; [exact HK|]. split; [exact HC|reflexivity].
Qed.

Lemma e_secret : secret eQ 4 (fst (genSecretKey eQ eP ex_sk)) ex_s.
Proof. apply (secret_key eQ eP 4 pair16 eq_refl ex_sk ex_s). apply ex_sampled; [cbn; lia|cbn; lia|exact ex_s_small]. Qed.
Lemma e_sampled : sampled eQ eP (maxLevel eQ) (maxLevel eP) ex_sk ex_s.
Proof. apply ex_sampled; [cbn; lia|cbn; lia|exact ex_s_small]. Qed.

(** Ciphertexts of degree 1 with arbitrary words. *)
Definition e_words (seed q : Z) : list Z := map (fun k => let k := Z.of_nat k in ((seed * 7919 + k * 104729 + seed * seed * 31 * k * k) mod 1000003) mod q) (seq 0 16).
Definition e_rows (seed : Z) (level : nat) : rows := map (fun i => e_words (seed + Z.of_nat i) (mq (rmod eQ i))) (seq 0 (S level)).
Definition e_ct (seed : Z) (level : nat) (scale : Z) : Ct := mkCt [e_rows seed level; e_rows (seed + 50) level] (f64_of_Z scale) true.
Definition e_ctb (level : nat) (B : Z -> Z) (v : list rows) : bool :=
  Nat.ltb level 3 && Nat.ltb 0 (length v) && Nat.leb (length v) 7 && forallb (fun p => Nat.eqb (length p) (S level) && wordsb eQ level B p) v.
Lemma e_ctb_ok level B v sc : e_ctb level B v = true -> ct_ok eQ level B (mkCt v sc true).
Proof.
  unfold e_ctb. rewrite !Bool.andb_true_iff, !Nat.ltb_lt, Nat.leb_le, forallb_forall. intros [[[H1 H2] H3] H4].
  split; [exact H1|]. split; [cbn; lia|]. split; [reflexivity|]. intros j Hj. cbn [ctV] in Hj. unfold comp. cbn [ctV].
  specialize (H4 (nth j v []) (nth_In v [] Hj)). rewrite Bool.andb_true_iff, Nat.eqb_eq in H4. destruct H4 as [H4 H5]. split; [exact H4|apply wordsb_ok; exact H5].
Qed.
Lemma e_fits : fits eQ canon.
Proof. exact (fits_canon eQ (proj1 pair16) 4 eq_refl). Qed.
Lemma e_decrypts level B c : ct_ok eQ level B c -> fits eQ B -> exists M, decrypts eQ 4 (fst (genSecretKey eQ eP ex_sk)) c M.
Proof.
  intros Hc HB. destruct (ct_ok_repr eQ (proj1 pair16) 4 eq_refl level B c Hc) as [C HC]. exists (dval eQ ex_s C (length (ctV c))).
  apply (decrypts_iff eQ (proj1 pair16) 4 eq_refl level B c C _ ex_s _ HC HB e_secret). intros i Hi. reflexivity.
Qed.

Lemma e_blocks : blocks_below eQ 2 1 18721.
Proof. intros i Hi. change (ceil_div (2 + 1) (1 + 1)) with 2%nat in Hi. destruct i as [|[|i]]; [unfold Z.le; vm_compute; discriminate..|lia]. Qed.
Lemma e_blocks1 : blocks_below eQ 1 1 18721.
Proof. intros i Hi. change (ceil_div (1 + 1) (1 + 1)) with 1%nat in Hi. destruct i as [|i]; [unfold Z.le; vm_compute; discriminate..|lia]. Qed.
Lemma e_room level : (level <= 2)%nat -> room exQ exP exT exGamma 16 level 18721.
Proof.
  intros Hl. exists 158497. split.
  - intros j Hj. change (length exP) with 2%nat in Hj. change exGamma with 2%nat in Hj. destruct j as [|[|[|j]]]; [unfold Z.le; vm_compute; discriminate..|lia].
  - destruct level as [|[|[|level]]]; [unfold Z.le; vm_compute; discriminate..|lia].
Qed.

Lemma e_shaped d level sc : (d <= 2)%nat -> shaped d level (NewCiphertext 16 d level sc).
Proof.
  intros Hd. unfold NewCiphertext. split; [cbn [ctV]; rewrite repeat_length; reflexivity|]. split; [reflexivity|]. intros j Hj. unfold comp. cbn [ctV].
  assert (E : nth j (repeat (zero_rows 16 (S level)) (S d)) [] = zero_rows 16 (S level)) by (apply (repeat_spec (S d)); apply nth_In; rewrite repeat_length; lia).
  rewrite E. unfold zero_rows. apply repeat_length.
Qed.

(** Decryption histories: two ciphertexts that differ only modulo the second modulus. *)
Definition h1 : Ct := e_ct 3 0 1.
Definition h2 : Ct := e_ct 5 1 1.
Definition h3 : Ct := mkCt [ [nth 0 (comp h2 0) []; e_words 77 193]; comp h2 1 ] (f64_of_Z 1) true.
Definition e_dec (cs : list Ct) (c : Ct) : rows := fst (fst (decrypt_pooled (decrypt_all (NewFDecryptor eQ (fst (genSecretKey eQ eP ex_sk))) cs) c)).
Lemma history : e_dec [] h2 <> e_dec [] h3 /\ e_dec [h1] h2 = e_dec [h1] h3.
Proof. split; [intros H; vm_compute in H; discriminate H|vm_compute; reflexivity]. Qed.

Lemma history_matters : exists rQ L sk s c0 c1 c2 M1 M2, built_ring 9 rQ /\ rN rQ = (2 ^ L)%nat /\ secret rQ L sk s /\
  ct_ok rQ 0 canon c0 /\ ct_ok rQ 1 canon c1 /\ ct_ok rQ 1 canon c2 /\ decrypts rQ L sk c1 M1 /\ decrypts rQ L sk c2 M2 /\
  let message cs c := fst (decrypt_pooled (decrypt_all (NewFDecryptor rQ sk) cs) c) in
  fst (message [] c1) <> fst (message [] c2) /\ message [c0] c1 = message [c0] c2.
Proof.
  assert (K1 : ct_ok eQ 0 canon h1) by (apply e_ctb_ok; vm_compute; reflexivity).
  assert (K2 : ct_ok eQ 1 canon h2) by (apply e_ctb_ok; vm_compute; reflexivity).
  assert (K3 : ct_ok eQ 1 canon h3) by (apply e_ctb_ok; vm_compute; reflexivity).
  destruct (e_decrypts _ _ _ K2 e_fits) as [M2 D2]. destruct (e_decrypts _ _ _ K3 e_fits) as [M3 D3]. destruct history as [X1 X2].
  exists eQ, 4%nat, (fst (genSecretKey eQ eP ex_sk)), ex_s, h1, h2, h3, M2, M3. split; [exact (proj1 pair16)|]. split; [reflexivity|].
  split; [exact e_secret|]. split; [exact K1|]. split; [exact K2|]. split; [exact K3|]. split; [exact D2|]. split; [exact D3|].
  split; [exact X1|]. unfold e_dec in X2. unfold decrypt_pooled in *. cbn [fst] in *. rewrite X2. reflexivity.
Qed.

(** Rotate does not set the scale of its receiver. *)
Definition e_fs : FScratch := mkFS (mkScratch [] ([], []) [] [] [] [] [] [] []) [] [] [] [] [] [] [] [] [] [] [] [].
Lemma rotate_scale : exists Qs Ps Ts gamma p ks conv L sk s rtk k c out scratch M,
  fast_setup Qs Ps Ts gamma p ks conv L /\ secret (fpQ p) L sk s /\ fast_rotation_key conv p L k rtk s 1 /\
  ct_ok (fpQ p) 2 canon c /\ decrypts (fpQ p) L sk c M /\ shaped 1 2 out /\
  exists c', FRotate ks rtk c out scratch = Some c' /\ f64_eq (ctScale c) f64_zero = false /\ f64_eq (ctScale c') (ctScale c) = false.
Proof.
  destruct ex_setup as (ks & conv & HF).
  assert (Hk := f_gen_rot exQ exP exT exGamma par16 ks conv 4 HF 3 ex_sk ex_s ex_err ex_e ex_aQ ex_aP ([], []) [] [] [] 1 e_sampled ex_random).
  specialize (Hk ltac:(intros i k Hlt; apply ex_e_small; exact Hlt)). cbv zeta in Hk.
  set (rtk := GenRotKey _ _ _ _ _ _ _ _ _ _ _) in Hk. clearbody rtk.
  assert (K0 : ct_ok eQ 2 canon (e_ct 11 2 1)) by (apply e_ctb_ok; vm_compute; reflexivity).
  destruct (e_decrypts _ _ _ K0 e_fits) as [M D0].
  destruct (f_rotate' exQ exP exT exGamma par16 ks conv 4 HF 2 2 canon rtk 3 (e_ct 11 2 1)
    (NewCiphertext 16 1 2 f64_zero) e_fs (fst (genSecretKey eQ eP ex_sk)) ex_s M 18721 1 1
    e_secret K0 e_fits) as (c & E & X1 & X2 & X3 & X4 & X5 & X6).
  - apply (wordsb_ok eQ 2). vm_compute. reflexivity.
  - exact D0.
  - reflexivity.
  - apply e_shaped. lia.
  - lia.
  - exact Hk.
  - exact e_blocks.
  - apply e_room. lia.
  - discriminate.
  - discriminate.
  - exact ex_s_small.
  - exists exQ, exP, exT, exGamma, par16, ks, conv, 4%nat, (fst (genSecretKey eQ eP ex_sk)), ex_s, rtk, 3, (e_ct 11 2 1), (NewCiphertext 16 1 2 f64_zero), e_fs, M.
    split; [exact HF|]. split; [exact e_secret|]. split; [exact Hk|]. split; [exact K0|]. split; [exact D0|]. split; [apply e_shaped; lia|].
    exists c. split; [exact X1|]. rewrite X4. split; vm_compute; reflexivity.
Qed.

Definition coeff_ct : Ct := mkCt [res_rows eQ 2 ex_A; res_rows eQ 2 ex_A] f64_zero false.
Lemma switch_keys_returns : exists ks conv key c, fast_setup exQ exP exT exGamma par16 ks conv 4 /\ fast_key conv par16 4 key ex_s (ppow 16 ex_s 2) 1 /\
  FSwitchKeysNew ks key coeff_ct e_fs = Some c.
Proof.
  destruct ex_setup as (ks & conv & HF).
  assert (Hk := f_gen_relin exQ exP exT exGamma par16 ks conv 4 HF ex_sk ex_s (fun _ => ex_err) ex_e (fun _ => ex_aQ) (fun _ => ex_aP) [] [] [] [] 1 e_sampled ex_random).
  specialize (Hk ltac:(intros i k Hlt; apply ex_e_small; exact Hlt)).
  set (key := GenRelinKey _ _ _ _ _ _ _ _ _ _) in Hk. clearbody key.
  destruct (fast_switch exQ exP exT exGamma par16 ks conv 4 HF 2 (res_rows eQ 2 ex_A) ex_A key ex_s e_fs (ppow 16 ex_s 2) 18721 1 1) as (c0 & c1 & C0 & C1 & E & X & _).
  - cbn. lia.
  - apply (res_rows_repr 9); [lia|exact (proj1 pair16)|cbn; lia].
  - exact Hk.
  - exact e_blocks.
  - apply e_room. lia.
  - discriminate.
  - discriminate.
  - exact ex_s_small.
  - exists ks, conv, key. eexists. split; [exact HF|]. split; [exact Hk|]. unfold FSwitchKeysNew, FSwitchKeys.
    change (Nat.min _ _) with 2%nat. change (ctNTT coeff_ct) with false. change (comp coeff_ct 1) with (res_rows eQ 2 ex_A). rewrite X. reflexivity.
Qed.
