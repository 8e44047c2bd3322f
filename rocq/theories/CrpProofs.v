(** Proofs about encryption from a shared polynomial. *)
From Coq Require Import Ring_theory.
From Flocq Require Import IEEE754.BinarySingleNaN.
From Verif Require Import Word Arith PolySpec PolyProofs Ring RingProofs NTT RingOps RNSSpec RowProofs OpsProofs NTTProofs OpsProps Scaling BasisExt Automorphism Gadget Frlwe FrlweSetup GadgetSpec Repr FrlweProps RlweSpec Rlwe RlweKeys RlweEnc RlweTop Float64 Codec Sampler SamplerSpec Gauss GaussSpec Ckks CkksSpec CkksBase Draw DrawSpec DrawProofs KeyKinds KeyKindsSpec KeyKindsProofs Crp.
Local Open Scope Z_scope.

Section C.
  Variable rQ : Ring.
  Hypothesis BQ : built_ring 9 rQ.
  Variable L : nat.
  Hypothesis EL : rN rQ = (2 ^ L)%nat.
  Notation n := (rN rQ).

  Lemma add_mul q A s s' X Y : peq n q (padd (padd (psub X (pmul n A s)) (psub Y (pmul n A s'))) (pmul n A (padd s s'))) (padd X Y).
  Proof.
    pose proof (poly_ring n q) as R. pose proof (poly_ring_ext n q) as RE. pose proof (peq_equiv n q) as PQ.
    transitivity (padd (padd (psub X (pmul n A s)) (psub Y (pmul n A s'))) (padd (pmul n A s) (pmul n A s'))).
    - apply (Radd_ext RE); [reflexivity|]. transitivity (pmul n (padd s s') A); [apply (Rmul_comm R)|].
      transitivity (padd (pmul n s A) (pmul n s' A)); [apply (Rdistr_l R)|]. apply (Radd_ext RE); apply (Rmul_comm R).
    - apply peq_exact. intros k Hk. unfold padd, psub. ring.
  Qed.
  Lemma copy_rows p0 p1 : length (CopyValues p0 p1) = Nat.max (S (Nat.min (length p0 - 1) (length p1 - 1))) (length p1).
  Proof. unfold CopyValues, CopyValuesLvl. apply lvl_length. Qed.
  Lemma copy_lt p0 p1 i : (i < length p0)%nat -> (i < length p1)%nat -> nth i (CopyValues p0 p1) [] = nth i p0 [].
  Proof. intros H1 H2. unfold CopyValues, CopyValuesLvl. rewrite lvl_nth_lt by lia. reflexivity. Qed.
  Lemma copy_ge p0 p1 i : (0 < length p0)%nat -> (length p0 <= i)%nat -> nth i (CopyValues p0 p1) [] = nth i p1 [].
  Proof. intros H1 H2. unfold CopyValues, CopyValuesLvl. rewrite lvl_nth_ge by lia. reflexivity. Qed.
  Lemma copy_ntt level p0 p1 A : (level < length p1)%nat -> rns_ntt rQ L level canon p0 A -> rns_ntt rQ L level canon (CopyValues p0 p1) A.
  Proof.
    intros H1 (H2 & H3 & H4). split; [exact H2|]. split; [rewrite copy_rows; lia|]. intros i Hi. rewrite copy_lt by lia. apply H4. exact Hi.
  Qed.
  Lemma copy_firstn level p0 p1 : (level < length p0)%nat -> (level < length p1)%nat -> firstn (S level) (CopyValues p0 p1) = firstn (S level) p0.
  Proof.
    intros H1 H2. apply (nth_ext _ _ [] []); [rewrite !firstn_length, copy_rows; lia|]. intros i Hi. rewrite firstn_length in Hi.
    rewrite !NTTProofs.nth_firstn by lia. apply copy_lt; lia.
  Qed.

  Lemma from_crp src sk s pt ptNTT scale crp ct pool st M : let level := Nat.min (length pt - 1) (ctLevel ct) in
    source_ok src -> errors_fit_Q rQ (srBound src) -> samplers_ok st -> secret rQ L sk s -> rns_dom rQ L level ptNTT pt M ->
    words rQ level canon crp -> (level < length (comp ct 1))%nat -> has_rows n level pool ->
    yields (EncryptFromCRP src rQ (SkKey sk) pt ptNTT scale crp ct pool st) (fun '(c, st') => samplers_ok st' /\
      ctScale c = scale /\ ctNTT c = ctNTT ct /\ ctLevel c = level /\ length (comp c 1) = S level /\ skipn 2 (ctV c) = skipn 2 (ctV ct) /\
      (ctNTT ct = true -> comp c 1 = firstn (S level) crp) /\
      exists E, (exists e, read_gauss src rQ level pool st = Ret (e, st') /\ rns_repr rQ level (fun q => q + 1) e E) /\ (forall k, Z.abs (E k) <= srBound src) /\
        (forall A, rns_ntt rQ L level canon crp A -> rns_dom rQ L level (ctNTT ct) (comp c 0) (psub (padd M E) (pmul n A s)) /\ rns_dom rQ L level (ctNTT ct) (comp c 1) A) /\
        forall pt' ptNTT' pool', (level < length pt')%nat -> rns_dom rQ L level ptNTT' (Decrypt rQ sk [comp c 0; comp c 1] (ctNTT c) pt' ptNTT' pool') (padd M E)).
  Proof.
    intros level HS HF HO Hs HM HW H1 Hp. assert (Hl : (level < length (rmods rQ))%nat) by (unfold rns_dom in HM; destruct ptNTT; exact (proj1 HM)).
    unfold EncryptFromCRP, rlwe_EncryptFromCRP. fold level. pose proof (gauss_Q rQ BQ src level pool st HS Hl Hp HO HF) as G.
    destruct (read_gauss src rQ level pool st) as [[e st1]| |] eqn:RG; cbn [bind yields] in *; [|exact I|exact G]. destruct G as (O1 & _ & _ & E & E1 & E2).
    assert (Hsk : rns_ntt rQ L level canon sk (pscale W s)) by (apply (ntt_down rQ L EL level (maxLevel rQ)); [unfold maxLevel; lia|exact Hs]).
    assert (SK : forall A, rns_ntt rQ L level canon crp A -> let '(d0, d1) := skEncrypt rQ sk pt ptNTT (comp ct 0) (CopyValues crp (comp ct 1)) (ctNTT ct) e in
      rns_dom rQ L level (ctNTT ct) d0 (psub (padd E M) (pmul n A s)) /\ rns_dom rQ L level (ctNTT ct) d1 A /\ length d0 = S level /\ length d1 = S level).
    { intros A HA. apply (sk_encrypt rQ BQ L EL level sk pt ptNTT (comp ct 0) _ (ctNTT ct) e A E M s eq_refl Hsk); [apply copy_ntt; assumption|exact HM|exact E1]. }
    assert (C1 : ctNTT ct = true -> snd (skEncrypt rQ sk pt ptNTT (comp ct 0) (CopyValues crp (comp ct 1)) (ctNTT ct) e) = firstn (Datatypes.S level) crp).
    { intros ->. rewrite <- (copy_firstn level crp (comp ct 1)) by (exact (proj1 HW) || exact H1). reflexivity. }
    destruct (skEncrypt _ _ _ _ _ _ _ _) as [d0 d1]. cbn [bind snd] in *.
    destruct (words_ntt rQ L level crp BQ EL Hl HW) as (A0 & HA0). destruct (SK A0 HA0) as (X0 & X1 & L0 & L1).
    split; [exact O1|]. split; [reflexivity|]. split; [reflexivity|]. split; [unfold ctLevel, comp; cbn [ctV nth]; lia|]. split; [exact L1|]. split; [reflexivity|]. split; [exact C1|].
    exists E. split; [exists e; split; [reflexivity|exact E1]|]. split; [exact E2|]. split.
    - intros A HA. destruct (SK A HA) as (Y0 & Y1 & _). split; [|exact Y1]. revert Y0. apply dom_peq; [exact EL|]. intros i Hi. apply peq_exact. intros k Hk. unfold psub, padd. ring.
    - intros pt' ptNTT' pool' Lp. apply (decrypt_two rQ BQ L EL level sk s d0 d1 _ _ (ctNTT ct) _ pt' ptNTT' pool' Hsk X0 X1 L0 Lp).
      intros q Hq. apply peq_exact. intros k Hk. unfold padd, psub. ring.
  Qed.

  (** A new ciphertext. *)
  Lemma new_comp level scale i : (i < 2)%nat -> comp (NewCiphertext n 1 level scale) i = zero_rows n (S level).
  Proof. intros H. destruct i as [|[|i]]; [reflexivity|reflexivity|lia]. Qed.
  Lemma new_level level scale : ctLevel (NewCiphertext n 1 level scale) = level.
  Proof. unfold ctLevel. rewrite new_comp by lia. unfold zero_rows. rewrite repeat_length. lia. Qed.
  Lemma new_from src key pt ptNTT scale crp pool st :
    EncryptFromCRPNew src rQ key pt ptNTT scale crp pool st = EncryptFromCRP src rQ key pt ptNTT scale crp (NewCiphertext n 1 (length pt - 1) scale) pool st.
  Proof.
    unfold EncryptFromCRPNew, EncryptFromCRP, rlwe_EncryptFromCRP. destruct key as [pk|sk]; [reflexivity|].
    destruct (read_gauss _ _ _ _ _) as [[e st1]| |]; cbn [bind]; [|reflexivity|reflexivity]. destruct (skEncrypt _ _ _ _ _ _ _ _) as [d0 d1]. reflexivity.
  Qed.

  Lemma from_crp_new src sk s pt ptNTT scale crp pool st M level : length pt = S level ->
    source_ok src -> errors_fit_Q rQ (srBound src) -> samplers_ok st -> secret rQ L sk s -> rns_dom rQ L level ptNTT pt M ->
    words rQ level canon crp -> has_rows n level pool ->
    yields (EncryptFromCRPNew src rQ (SkKey sk) pt ptNTT scale crp pool st) (fun '(c, st') => samplers_ok st' /\
      ctScale c = scale /\ ctNTT c = true /\ ctLevel c = level /\ ctDegree c = 1%nat /\ comp c 1 = firstn (S level) crp /\
      exists E, (exists e, read_gauss src rQ level pool st = Ret (e, st') /\ rns_repr rQ level (fun q => q + 1) e E) /\ (forall k, Z.abs (E k) <= srBound src) /\
        (forall A, rns_ntt rQ L level canon crp A -> rns_ntt rQ L level canon (comp c 0) (psub (padd M E) (pmul n A s))) /\
        forall pt' ptNTT' pool', (level < length pt')%nat -> rns_dom rQ L level ptNTT' (Decrypt rQ sk (ctV c) true pt' ptNTT' pool') (padd M E)).
  Proof.
    intros Lp HS HF HO Hs HM HW Hp. rewrite new_from.
    pose proof (from_crp src sk s pt ptNTT scale crp (NewCiphertext n 1 (length pt - 1) scale) pool st M) as R. cbv zeta in R.
    rewrite new_level, Nat.min_id, new_comp in R by lia. replace (length pt - 1)%nat with level in * by lia.
    specialize (R HS HF HO Hs HM HW ltac:(unfold zero_rows; rewrite repeat_length; lia) Hp).
    destruct (EncryptFromCRP _ _ _ _ _ _ _ _ _ _) as [[c st1]| |]; cbn [yields] in *; [|exact I|exact R].
    destruct R as (R1 & R2 & R3 & R4 & R5 & R6 & R7 & E & E0 & E1 & E2 & E3). cbn [NewCiphertext ctNTT ctV repeat skipn] in *.
    assert (V : ctV c = [comp c 0; comp c 1]).
    { unfold ctLevel, comp in *. destruct (ctV c) as [|v0 [|v1 vs]]; cbn in R5; [discriminate..|]. cbn in R6. rewrite R6. reflexivity. }
    split; [exact R1|]. split; [exact R2|]. split; [exact R3|]. split; [exact R4|]. split; [unfold ctDegree; rewrite V; reflexivity|]. split; [apply R7; reflexivity|].
    exists E. split; [exact E0|]. split; [exact E1|]. split; [intros A HA; apply (E2 A HA)|]. rewrite V. rewrite R3 in E3. exact E3.
  Qed.

  (** The key of the sum of two secrets. *)
  Lemma secret_sum sk sk' s s' out : secret rQ L sk s -> secret rQ L sk' s' -> secret rQ L (AddLvl rQ (maxLevel rQ) sk sk' out) (padd s s').
  Proof.
    unfold secret. intros H H'. apply (ntt_peq rQ L EL (maxLevel rQ) canon _ (padd (pscale W s) (pscale W s'))); [|apply (e_addn rQ BQ L EL (maxLevel rQ)); assumption].
    intros i Hi. apply peq_exact. intros k Hk. unfold padd, pscale. ring.
  Qed.

  (** Two encryptions from the same polynomial. *)
  Lemma same_crp src src' sk sk' s s' pt pt' ptNTT ptNTT' scale scale' crp pool pool' st st' M M' level c c' st1 st1' :
    length pt = S level -> length pt' = S level -> source_ok src -> source_ok src' -> errors_fit_Q rQ (srBound src) -> errors_fit_Q rQ (srBound src') ->
    samplers_ok st -> samplers_ok st' -> secret rQ L sk s -> secret rQ L sk' s' -> rns_dom rQ L level ptNTT pt M -> rns_dom rQ L level ptNTT' pt' M' ->
    words rQ level canon crp -> has_rows n level pool -> has_rows n level pool' ->
    EncryptFromCRPNew src rQ (SkKey sk) pt ptNTT scale crp pool st = Ret (c, st1) -> EncryptFromCRPNew src' rQ (SkKey sk') pt' ptNTT' scale' crp pool' st' = Ret (c', st1') ->
    comp c 1 = comp c' 1 /\
    (exists E, (forall k, Z.abs (E k) <= srBound src + srBound src') /\ forall both out p pN pl, secret rQ L both (padd s s') -> (level < length p)%nat -> length out = S level ->
      rns_dom rQ L level pN (Decrypt rQ both [AddLvl rQ level (comp c 0) (comp c' 0) out; comp c 1] true p pN pl) (padd (padd M M') E)) /\
    (sk' = sk -> s' = s -> exists E, (forall k, Z.abs (E k) <= srBound src + srBound src') /\ forall out, rns_ntt rQ L level canon (SubLvl rQ level (comp c 0) (comp c' 0) out) (padd (psub M M') E)).
  Proof.
    intros Lp Lp' HS HS' HF HF' HO HO' Hs Hs' HM HM' HW Hp Hp' R R'.
    pose proof (from_crp_new src sk s pt ptNTT scale crp pool st M level Lp HS HF HO Hs HM HW Hp) as G. rewrite R in G. cbn [yields] in G.
    pose proof (from_crp_new src' sk' s' pt' ptNTT' scale' crp pool' st' M' level Lp' HS' HF' HO' Hs' HM' HW Hp') as G'. rewrite R' in G'. cbn [yields] in G'.
    destruct G as (_ & _ & _ & _ & _ & C1 & E & _ & E1 & E2 & _). destruct G' as (_ & _ & _ & _ & _ & C1' & E' & _ & E1' & E2' & _).
    assert (Hl : (level < length (rmods rQ))%nat) by (unfold rns_dom in HM; destruct ptNTT; exact (proj1 HM)).
    destruct (words_ntt rQ L level crp BQ EL Hl HW) as (A & HA). pose proof (E2 A HA) as D. pose proof (E2' A HA) as D'.
    split; [rewrite C1, C1'; reflexivity|]. split.
    - exists (padd E E'). split; [intros k; specialize (E1 k); specialize (E1' k); unfold padd; lia|]. intros both out p pN pl Hb Hlp Ho.
      apply (decrypt_two rQ BQ L EL level both (padd s s') _ _ (padd (psub (padd M E) (pmul n A s)) (psub (padd M' E') (pmul n A s'))) A true _ p pN pl).
      + apply (ntt_down rQ L EL level (maxLevel rQ)); [unfold maxLevel; lia|exact Hb].
      + apply (e_addn rQ BQ L EL level); assumption.
      + rewrite C1. apply (firstn_dom rQ L level true). exact HA.
      + unfold AddLvl, op2. rewrite lvl_length. lia.
      + exact Hlp.
      + intros q Hq. transitivity (padd (padd M E) (padd M' E')); [apply add_mul|]. apply peq_exact. intros k Hk. unfold padd. ring.
    - intros -> ->. exists (psub E E'). split; [intros k; specialize (E1 k); specialize (E1' k); unfold psub; lia|]. intros out.
      apply (ntt_peq rQ L EL level canon _ (psub (psub (padd M E) (pmul n A s)) (psub (padd M' E') (pmul n A s)))).
      + intros i Hi. apply peq_exact. intros k Hk. unfold psub, padd. ring.
      + revert D D'. apply (n_sub rQ L (one_2 rQ BQ) EL). intros i Hi. destruct (one_mod rQ BQ i ltac:(lia)). unfold canon. lia.
  Qed.

  (** A polynomial with fewer rows than the plaintext. *)
  Lemma short_crp src sk s pt ptNTT scale crp pool st M level : length pt = S level ->
    source_ok src -> errors_fit_Q rQ (srBound src) -> samplers_ok st -> secret rQ L sk s -> rns_dom rQ L level ptNTT pt M -> has_rows n level pool ->
    (0 < length crp <= level)%nat -> words rQ (length crp - 1) canon crp ->
    yields (EncryptFromCRPNew src rQ (SkKey sk) pt ptNTT scale crp pool st) (fun '(c, _) => ctLevel c = level /\
      exists E, (forall k, Z.abs (E k) <= srBound src) /\ forall i, (length crp <= i <= level)%nat ->
        nth i (comp c 1) [] = repeat 0 n /\ ntt_repr L (rmod rQ i) (mq (rmod rQ i)) (nth i (comp c 0) []) (padd M E)).
  Proof.
    intros Lp HS HF HO Hs HM Hp Hc HW. assert (Hl : (level < length (rmods rQ))%nat) by (unfold rns_dom in HM; destruct ptNTT; exact (proj1 HM)).
    set (z := zero_rows n (S level)). set (full := CopyValues crp z).
    assert (Lz : length z = S level) by apply repeat_length.
    assert (Lf : length full = S level) by (unfold full; rewrite copy_rows; lia).
    assert (Hz : forall i, (length crp <= i <= level)%nat -> nth i full [] = repeat 0 n).
    { intros i Hi. unfold full. rewrite copy_ge by lia. unfold z, zero_rows. rewrite nth_repeat_lt' by lia. reflexivity. }
    assert (Wf : words rQ level canon full).
    { split; [lia|]. intros i Hi. unfold coeff. destruct (Nat.lt_ge_cases i (length crp)) as [C|C].
      - unfold full. rewrite copy_lt by lia. apply (proj2 HW). lia.
      - rewrite (Hz i) by lia. split; [apply repeat_length|]. intros k Hk. rewrite nth_repeat. destruct (one_mod rQ BQ i ltac:(lia)). unfold canon. lia. }
    assert (SAME : EncryptFromCRPNew src rQ (SkKey sk) pt ptNTT scale crp pool st = EncryptFromCRPNew src rQ (SkKey sk) pt ptNTT scale full pool st).
    { unfold EncryptFromCRPNew, rlwe_EncryptFromCRP. rewrite !new_comp by lia. replace (length pt - 1)%nat with level by lia. fold z. fold full.
      assert (F : CopyValues full z = full); [|rewrite F; reflexivity].
      apply (nth_ext _ _ [] []); [rewrite copy_rows; lia|]. intros i Hi. rewrite copy_rows in Hi. apply copy_lt; lia. }
    rewrite SAME. clear SAME. pose proof (from_crp_new src sk s pt ptNTT scale full pool st M level Lp HS HF HO Hs HM Wf Hp) as G.
    destruct (EncryptFromCRPNew _ _ _ _ _ _ _ _ _) as [[c st1]| |]; cbn [yields] in *; [|exact I|exact G].
    destruct G as (_ & _ & _ & G4 & _ & C1 & E & _ & E1 & E2 & _). split; [exact G4|]. exists E. split; [exact E1|]. intros i Hi.
    split; [rewrite C1, NTTProofs.nth_firstn by lia; apply Hz; exact Hi|].
    destruct (words_ntt rQ L level full BQ EL Hl Wf) as (A & HA). destruct (E2 A HA) as (_ & _ & D). destruct (D i ltac:(lia)) as (D1 & D2). destruct HA as (_ & _ & HA).
    destruct (HA i ltac:(lia)) as (_ & A2). split; [exact D1|]. intros k Hk. destruct (D2 k Hk) as (D3 & D4). split; [exact D3|].
    rewrite D4, values_sub. rewrite EL. rewrite (values_mul L (rmod rQ i)) by (apply (built_wf rQ L (one_2 rQ BQ) EL); lia).
    destruct (A2 k Hk) as (_ & A3). rewrite (Hz i) in A3 by lia. rewrite nth_repeat in A3. rewrite <- A3. apply eqm_eq. ring.
  Qed.
End C.
