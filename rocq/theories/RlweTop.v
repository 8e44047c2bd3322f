(** Key generation, encryption, key switching and decryption together. *)
From Verif Require Import Word ModRed Arith Fermat ModRedProofs PolySpec PolyProofs Ring RingProofs NTT NTTProofs RingOps RNSSpec RowProofs OpsProofs OpsProps NTTProps Repr BasisExt CRT BasisProofs BasisProps Automorphism AutoProps Scaling Gadget MarginProofs AccumProofs GadgetSpec GadgetProofs Frlwe FrlweSetup FrlweProps FrlweSwitch RlweSpec Rlwe RlweBase RlweKeys RlweSwitch RlweGen RlweEnc.

Lemma qp_restrict rQ rP L lQ lP lQ' lP' B p X : (lQ' <= lQ)%nat -> (lP' <= lP)%nat -> qp_ntt rQ rP L lQ lP B p X -> qp_ntt rQ rP L lQ' lP' B p X.
Proof. intros H1 H2 [(A1 & A2 & A3) (B1 & B2 & B3)]. split; (split; [lia|]; split; [lia|]; intros i Hi; first [apply A3; lia|apply B3; lia]). Qed.

Lemma le_max (r : Ring) level : (level < length (rmods r))%nat -> (level <= maxLevel r)%nat.
Proof. unfold maxLevel. lia. Qed.

Lemma words_ntt r L level p : built_ring 9 r -> rN r = (2 ^ L)%nat -> (level < length (rmods r))%nat -> words r level canon p ->
  exists X, rns_ntt r L level canon p X.
Proof.
  intros Br EL Hl Hw.
  destruct (finite_choice 0 (rN r) (fun k x => forall i, (i <= level)%nat -> eqm (mq (rmod r i)) x (co (invntt_row (2 ^ L) (rmod r i) (nth i p [])) k))) as [X HX].
  - intros k Hk. destruct (crt_exists (moduli r)) with (v := fun i => co (invntt_row (2 ^ L) (rmod r i) (nth i p [])) k) as [x Hx].
    + intros q Hq. apply (sw_prime r); assumption.
    + apply moduli_nodup. exact Br.
    + exists x. intros i Hi. specialize (Hx i). rewrite <- moduli_length in Hx. specialize (Hx ltac:(lia)). rewrite nth_moduli in Hx by lia. exact Hx.
  - exists X. split; [exact Hl|]. split; [apply Hw|]. intros i Hi. pose proof (ntt_of_words r L level p Br EL Hl Hw i Hi) as R.
    apply (row_repr_peq _ _ _ _ _ _) with (2 := R). intros k Hk. symmetry. apply values_peq.
    intros x Hx. apply (HX x); [rewrite EL; exact Hx|exact Hi].
Qed.

(** C31. *)
Lemma generated_switching_key : forall rQ rP, ring_pair rQ rP -> forall L, rN rQ = (2 ^ L)%nat ->
  forall levelQ levelP sIn sOut s s' e E aQ aP poolQ,
  (levelQ < length (rmods rQ))%nat -> (levelP < length (rmods rP))%nat ->
  sampled rQ rP (maxLevel rQ) (maxLevel rP) sIn s' -> sampled rQ rP (maxLevel rQ) (maxLevel rP) sOut s ->
  randomness_ok rQ rP levelQ levelP e E aQ aP ->
  let '(key0, key1) := genSwitchingKey rQ rP levelQ levelP (fst (genSecretKey rQ rP sIn)) (genSecretKey rQ rP sOut) e aQ aP poolQ in
  (forall i, (i < ceil_div (levelQ + 1) (levelP + 1))%nat -> nth i key1 ([], []) = (aQ i, aP i)) /\
  switching_key_ok rQ rP L levelQ levelP key0 key1 E s s'.
Proof.
  intros rQ rP HP L EL levelQ levelP sIn sOut s s' e E aQ aP poolQ HlQ HlP HI HO HR.
  apply (switching_key rQ rP L HP EL levelQ levelP); [exact HlQ|exact HlP| | |exact HR].
  - apply (qp_restrict rQ rP L (maxLevel rQ) (maxLevel rP) levelQ levelP); [apply le_max; exact HlQ|apply le_max; exact HlP|]. apply (secret_key rQ rP L HP EL). exact HI.
  - apply (qp_restrict rQ rP L (maxLevel rQ) (maxLevel rP)); [apply le_max; exact HlQ|apply le_max; exact HlP|]. apply (secret_key rQ rP L HP EL). exact HO.
Qed.

Lemma generated_relin_key : forall rQ rP, ring_pair rQ rP -> forall L, rN rQ = (2 ^ L)%nat ->
  forall sk s maxDegree e E aQ aP poolQP poolQ,
  let lQ := maxLevel rQ in let lP := maxLevel rP in
  sampled rQ rP lQ lP sk s -> (forall j, (j < maxDegree)%nat -> randomness_ok rQ rP lQ lP (e j) (E j) (aQ j) (aP j)) ->
  let rlk := GenRelinearizationKey rQ rP (genSecretKey rQ rP sk) maxDegree e aQ aP poolQP poolQ in
  length rlk = maxDegree /\
  forall j, (j < maxDegree)%nat -> let '(key0, key1) := nth j rlk ([], []) in
    switching_key_ok rQ rP L lQ lP key0 key1 (E j) s (ppow (rN rQ) s (j + 2)).
Proof.
  intros rQ rP HP L EL sk s maxDegree e E aQ aP poolQP poolQ lQ lP Hs HR. apply (relin_key rQ rP L HP EL); [apply (secret_key rQ rP L HP EL); exact Hs|exact HR].
Qed.

Lemma generated_rot_key : forall rQ rP, ring_pair rQ rP -> forall L, rN rQ = (2 ^ L)%nat ->
  forall sk s g e E aQ aP poolQP poolQ,
  let lQ := maxLevel rQ in let lP := maxLevel rP in
  0 <= g -> Z.odd g = true -> sampled rQ rP lQ lP sk s -> randomness_ok rQ rP lQ lP e E aQ aP ->
  let '(key0, key1) := genrotKey rQ rP (genSecretKey rQ rP sk) g e aQ aP poolQP poolQ in
  switching_key_ok rQ rP L lQ lP key0 key1 E (pauto (rN rQ) (Z.to_nat g) s) s.
Proof.
  intros rQ rP HP L EL sk s g e E aQ aP poolQP poolQ lQ lP Hg Ho Hs HR. apply (rot_key rQ rP L HP EL); [exact Hg|exact Ho|apply (secret_key rQ rP L HP EL); exact Hs|exact HR].
Qed.

(** C32. *)
Lemma key_switching : forall rQ rP, ring_pair rQ rP -> forall L, rN rQ = (2 ^ L)%nat ->
  forall levelK levelQ levelP cx isNTT A (key0 key1 : list (rows * rows)) poolInv c2 pool1P pool2P p0 p1 e s s' DQ Be Bs,
  let n := rN rQ in let Qs := prefix rQ levelQ in let Ps := prefix rP levelP in let nb := ceil_div (levelQ + 1) (levelP + 1) in
  (levelQ <= levelK)%nat -> (levelK < length (rmods rQ))%nat -> (levelP < length (rmods rP))%nat -> (levelP < 18)%nat ->
  rns_dom rQ L levelQ isNTT cx A -> switching_key_ok rQ rP L levelK levelP key0 key1 e s s' ->
  (forall i, (i < nb)%nat -> product (block_of (levelP + 1) i Qs) <= DQ) ->
  0 <= Be -> 0 <= Bs -> (forall i, (i < nb)%nat -> pbound n Be (e i)) -> pbound n Bs s ->
  exists c0 c1 C0 C1 d rho0 rho1 E,
    SwitchKeysInPlace rQ rP levelQ levelP cx isNTT key0 key1 poolInv c2 pool1P pool2P p0 p1 = Some (c0, c1) /\
    rns_dom rQ L levelQ isNTT c0 C0 /\ rns_dom rQ L levelQ isNTT c1 C1 /\ kept levelQ p0 c0 /\ kept levelQ p1 c1 /\
    switched n nb levelQ Qs Ps C0 C1 A s s' d e rho0 rho1 E /\
    (forall i k, (i < nb)%nat -> (k < n)%nat -> lift_of (product (block_of (levelP + 1) i Qs)) (A k) (d i k)) /\
    (forall k, (k < n)%nat -> 2 ^ 42 * (product Ps * Z.abs (E k))
       <= (2 ^ 42 + 1) * (Z.of_nat nb * (Z.of_nat n * (DQ * Be)) + product Ps * (1 + Z.of_nat n * Bs))).
Proof.
  intros rQ rP HP L EL levelK levelQ levelP cx isNTT A key0 key1 poolInv c2 pool1P pool2P p0 p1 e s s' DQ Be Bs n Qs Ps nb HK HK' HlP H18 HA Hkey HDQ HBe HBs He Hs.
  assert (HlQ : (levelQ < length (rmods rQ))%nat) by (clear - HK HK'; lia).
  destruct (rlwe_switch rQ rP L HP EL levelQ levelP HlQ HlP H18 levelK cx isNTT A key0 key1 poolInv c2 pool1P pool2P p0 p1 e s s' HK HK' HA Hkey)
    as (c0 & c1 & C0 & C1 & d & rho0 & rho1 & E & X1 & X2 & X3 & X4 & X5 & X6 & X7).
  exists c0, c1, C0, C1, d, rho0, rho1, E. do 5 (split; [assumption|]). split; [exact X7|]. split; [exact X6|].
  pose proof (k_Q rQ rP HP) as BQ. pose proof (k_P rQ rP HP) as BP.
  assert (POS : forall r l, built_ring 9 r -> (forall q, In q l -> In q (moduli r)) -> 0 < product l).
  { intros r l Br. induction l as [|q l IH]; intros Hl; [reflexivity|]. cbn [product fold_right]. apply Z.mul_pos_pos.
    - assert (Pq : prime q) by (apply (sw_prime r); [exact Br|apply Hl; left; reflexivity]). apply prime_ge_2 in Pq. lia.
    - apply IH. intros x Hx. apply Hl. right. exact Hx. }
  assert (SUB : forall q i, In q (block_of (levelP + 1) i Qs) -> In q (moduli rQ)).
  { intros q i Hq. unfold block_of in Hq. apply firstn_in in Hq. apply (firstn_in (S levelQ)). revert Hq. fold (prefix rQ levelQ). fold Qs. generalize Qs, (i * (levelP + 1))%nat. clear.
    intros l m. revert l. induction m as [|m IH]; intros l H; [exact H|]. destruct l as [|a l]; [destruct H|]. right. apply IH. exact H. }
  assert (NB : (0 < nb)%nat) by (unfold nb, ceil_div; apply Nat.div_str_pos; lia).
  assert (DP : 0 <= DQ) by (specialize (HDQ 0%nat NB); pose proof (POS rQ (block_of (levelP + 1) 0 Qs) BQ (fun q Hq => SUB q 0%nat Hq)); lia).
  apply (switched_bound n nb levelQ Qs Ps C0 C1 A s s' d e rho0 rho1 E DQ Be Bs DP HBe HBs); [| |exact He|exact Hs|exact X7].
  - apply (POS rP Ps BP). intros q Hq. apply (firstn_in _ _ _ Hq).
  - intros i k Hi Hk. destruct (X6 i k Hi Hk) as (_ & Y1 & Y2). pose proof (HDQ i Hi) as D1. pose proof (POS rQ (block_of (levelP + 1) i Qs) BQ (fun q Hq => SUB q i Hq)) as D2.
    fold Qs in Y1, Y2. revert Y1 Y2 D1 D2. generalize (product (block_of (levelP + 1) i Qs)) (d i k). clear. intros. lia.
Qed.

(** ** Encryption, then decryption *)
Lemma fresh_bound n p U e E0 E1 s rho0 rho1 F Bu Be B0 B1 Bs : 0 < p -> 0 <= Bu -> 0 <= Be -> 0 <= B1 -> 0 <= Bs ->
  pbound n Bu U -> pbound n Be e -> pbound n B0 E0 -> pbound n B1 E1 -> pbound n Bs s ->
  fresh_noise n p U e E0 E1 s rho0 rho1 F ->
  forall k, (k < n)%nat -> 2 ^ 42 * (p * Z.abs (F k)) <= 2 ^ 42 * (Z.of_nat n * (Bu * Be) + B0 + Z.of_nat n * (B1 * Bs)) + (2 ^ 42 + 1) * (p * (1 + Z.of_nat n * Bs)).
Proof.
  intros Hp HBu HBe HB1 HBs HU He H0 H1 Hs HF k Hk. destruct (HF k Hk) as (EE & A1 & A2 & _).
  assert (X1 : Z.abs (pmul n U e k) <= Z.of_nat n * (Bu * Be)) by (apply pmul_bound; assumption).
  assert (X2 : Z.abs (pmul n E1 s k) <= Z.of_nat n * (B1 * Bs)) by (apply pmul_bound; assumption).
  assert (X3 : 2 ^ 42 * Z.abs (pmul n rho1 s k) <= (2 ^ 42 + 1) * (p * (Z.of_nat n * Bs))).
  { set (r' := fun k => 2 ^ 42 * rho1 k).
    assert (X : Z.abs (pmul n r' s k) <= Z.of_nat n * ((2 ^ 42 + 1) * p * Bs)).
    { apply pmul_bound; [lia|exact HBs| |exact Hs|exact Hk]. intros x Hx. unfold r'. destruct (HF x Hx) as (_ & _ & _ & A3 & A4). lia. }
    assert (Y : pmul n r' s k = 2 ^ 42 * pmul n rho1 s k).
    { unfold pmul. rewrite <- bigsum_scale. apply bigsum_ext. intros x Hx. unfold r'. ring. }
    rewrite Y, Z.abs_mul in X. change (Z.abs (2 ^ 42)) with (2 ^ 42) in X.
    transitivity (Z.of_nat n * ((2 ^ 42 + 1) * p * Bs)); [exact X|]. apply Z.eq_le_incl. ring. }
  assert (X4 := H0 k Hk). assert (EA : p * Z.abs (F k) = Z.abs (p * F k)) by (rewrite Z.abs_mul, (Z.abs_eq p) by lia; reflexivity).
  rewrite EA, EE. unfold padd. replace (p * (1 + Z.of_nat n * Bs)) with (p + p * (Z.of_nat n * Bs)) by ring.
  revert X1 X2 X3 X4 A1 A2. generalize (pmul n U e k) (pmul n E1 s k) (pmul n rho1 s k) (E0 k) (rho0 k) (Z.of_nat n * (Bu * Be)) (Z.of_nat n * (B1 * Bs)) (p * (Z.of_nat n * Bs)).
  clear. intros. lia.
Qed.

Lemma two_terms n q C0 C1 s : peq n q (psum 2 (fun i => pmul n (nth i [C0; C1] pzero) (ppow n s i))) (padd C0 (pmul n C1 s)).
Proof.
  intros k Hk. unfold psum. cbn [bigsum nth ppow]. rewrite (pmul_1_r n q C0 k Hk).
  assert (X : eqm q (pmul n C1 (pmul n pone s) k) (pmul n C1 s k)) by (apply (pmul_peq n q); [reflexivity|apply pmul_1_l|exact Hk]).
  rewrite X. unfold padd. apply eqm_eq. ring.
Qed.

Section Roundtrip.
  Variables (rQ : Ring).
  Hypothesis BQ : built_ring 9 rQ.
  Variables (L : nat).
  Hypothesis EL : rN rQ = (2 ^ L)%nat.
  Lemma decrypt_two level sk s c0 c1 C0 C1 ctNTT V pt ptNTT pool : rns_ntt rQ L level canon sk (pscale W s) ->
    rns_dom rQ L level ctNTT c0 C0 -> rns_dom rQ L level ctNTT c1 C1 -> length c0 = S level -> (level < length pt)%nat ->
    (forall q, In q (prefix rQ level) -> peq (rN rQ) q (padd C0 (pmul (rN rQ) C1 s)) V) ->
    rns_dom rQ L level ptNTT (Decrypt rQ sk [c0; c1] ctNTT pt ptNTT pool) V.
  Proof.
    intros Hs H0 H1 L0 Lp HV. assert (Hl := proj1 Hs).
    apply (dom_peq rQ L level ptNTT _ (psum 2 (fun i => pmul (rN rQ) (nth i [C0; C1] pzero) (ppow (rN rQ) s i))) V EL).
    - intros i Hi. rewrite two_terms. apply HV. rewrite <- (prefix_nth rQ level i Hl Hi). apply nth_In. rewrite prefix_length by exact Hl. lia.
    - refine (proj1 (proj2 (decrypt_correct rQ BQ L EL level _ _ _ (fun i => nth i [C0; C1] pzero) s _ _ _ pt ptNTT pool _ _)) _).
      all: cbn [nth length]; try assumption; try lia.
      intros i Hi. destruct i as [|[|i]]; cbn [nth]; [exact H0|exact H1|lia].
  Qed.
End Roundtrip.

(** C30. *)
Lemma pk_encrypt_decrypt : forall rQ rP, ring_pair rQ rP -> forall L, rN rQ = (2 ^ L)%nat ->
  forall sRows s eRows e aQ aP,
  let lQ := maxLevel rQ in let lP := maxLevel rP in let n := rN rQ in let p := mq (rmod rP 0) in
  sampled rQ rP lQ lP sRows s -> sampled rQ rP lQ lP eRows e -> words rQ lQ canon aQ -> words rP lP canon aP ->
  let sk := genSecretKey rQ rP sRows in let pk := GenPublicKey rQ rP sk eRows aQ aP in
  forall pt ptNTT ct0 ct1 ctNTT u e0 e1 pool poolP0 poolP1 U E0 E1 M,
  let level := Nat.min (length pt - 1) (length ct0 - 1) in
  rns_dom rQ L level ptNTT pt M ->
  sampled rQ rP level 0 u U -> sampled rQ rP level 0 e0 E0 -> sampled rQ rP level 0 e1 E1 ->
  let '(c0, c1) := pkEncrypt rQ rP pk pt ptNTT ct0 ct1 ctNTT u e0 e1 pool poolP0 poolP1 in
  length c0 = S level /\ length c1 = S level /\
  exists F rho0 rho1, fresh_noise n p U e E0 E1 s rho0 rho1 F /\
    (forall pt' ptNTT' pool', (level < length pt')%nat ->
       rns_dom rQ L level ptNTT' (Decrypt rQ (fst sk) [c0; c1] ctNTT pt' ptNTT' pool') (padd M F)) /\
    (forall Bu Be B0 B1 Bs, 0 <= Bu -> 0 <= Be -> 0 <= B1 -> 0 <= Bs ->
       pbound n Bu U -> pbound n Be e -> pbound n B0 E0 -> pbound n B1 E1 -> pbound n Bs s ->
       forall k, (k < n)%nat -> 2 ^ 42 * (p * Z.abs (F k))
         <= 2 ^ 42 * (Z.of_nat n * (Bu * Be) + B0 + Z.of_nat n * (B1 * Bs)) + (2 ^ 42 + 1) * (p * (1 + Z.of_nat n * Bs))).
Proof.
  intros rQ rP HP L EL sRows s eRows e aQ aP lQ lP n p Hs He WQ WP sk pk pt ptNTT ct0 ct1 ctNTT u e0 e1 pool poolP0 poolP1 U E0 E1 M level HM HU HE0 HE1.
  pose proof (k_Q rQ rP HP) as BQ. pose proof (k_P rQ rP HP) as BP.
  assert (Hl := proj1 (dom_level _ _ _ _ _ _ HM)).
  assert (Hsk := secret_key rQ rP L HP EL sRows s Hs). fold sk lQ lP in Hsk.
  destruct (public_key rQ rP L HP EL sk s eRows e aQ aP Hsk He WQ WP) as (A & B & HPK). fold pk in HPK.
  change (let '(pk0, pk1) := pk in pk1 = (aQ, aP) /\ qp_ntt rQ rP L lQ lP canon pk1 A /\ qp_ntt rQ rP L lQ lP canon pk0 B /\ (forall q, peq n q (padd B (pmul n A s)) e)) in HPK.
  assert (HPK' : qp_ntt rQ rP L lQ lP canon (fst pk) B /\ qp_ntt rQ rP L lQ lP canon (snd pk) A /\ (forall q, peq n q (padd B (pmul n A s)) e)) by (destruct pk; intuition).
  clear HPK. destruct HPK' as (K0 & K1 & K2).
  pose proof (pk_encrypt rQ rP L HP EL level pk pt ptNTT ct0 ct1 ctNTT u e0 e1 pool poolP0 poolP1 B A U e E0 E1 M s eq_refl) as ENC.
  destruct (pkEncrypt rQ rP pk pt ptNTT ct0 ct1 ctNTT u e0 e1 pool poolP0 poolP1) as [c0 c1].
  destruct ENC as (L0 & L1 & C0 & C1 & rho0 & rho1 & F & HC0 & HC1 & HV & HF).
  - apply (qp_restrict rQ rP L lQ lP); [apply le_max; exact Hl|lia|exact K0].
  - apply (qp_restrict rQ rP L lQ lP); [apply le_max; exact Hl|lia|exact K1].
  - intros q _. apply K2.
  - exact HM.
  - exact HU.
  - exact HE0.
  - exact HE1.
  - split; [exact L0|]. split; [exact L1|]. exists F, rho0, rho1. split; [exact HF|]. split.
    + intros pt' ptNTT' pool' Lp. apply (decrypt_two rQ BQ L EL level _ s c0 c1 C0 C1); try assumption.
      apply (qp_restrict rQ rP L lQ lP level 0); [apply le_max; exact Hl|lia|exact Hsk].
    + intros Bu Be B0 B1 Bs H1 H2 H3 H4 H5 H6 H7 H8 H9. apply (fresh_bound n p U e E0 E1 s rho0 rho1); try assumption.
      assert (H0 : (0 < length (rmods rP))%nat) by (destruct K0 as [_ [H0 _]]; clear - H0; lia). destruct (one_mod rP BP 0 H0). unfold p. lia.
Qed.

Section Alg.
  Variables (n : nat) (q : Z).
  Add Ring polyring : (poly_ring n q) (setoid (peq_equiv n q) (poly_ring_ext n q)).
  Lemma nop_algebra U b0 b1 e E0 E1 M s : peq n q (padd b0 (pmul n b1 s)) e ->
    peq n q (padd (padd (padd (pmul n U b0) E0) M) (pmul n (padd (pmul n U b1) E1) s)) (padd M (padd (padd (pmul n U e) E0) (pmul n E1 s))).
  Proof. intros H. rewrite <- H. ring. Qed.
End Alg.

(** Without special moduli, and with the secret key, the noise is exactly what was sampled. *)
Lemma pk_encrypt_nop_decrypt : forall rQ, built_ring 9 rQ -> forall L, rN rQ = (2 ^ L)%nat ->
  forall sk pk pt ptNTT ct0 ct1 ctNTT u e0 e1 pool s b0 b1 e U E0 E1 M,
  let n := rN rQ in let level := Nat.min (length pt - 1) (length ct0 - 1) in
  rns_ntt rQ L level canon sk (pscale W s) -> rns_ntt rQ L level canon (fst pk) b0 -> rns_ntt rQ L level canon (snd pk) b1 ->
  (forall q, In q (prefix rQ level) -> peq n q (padd b0 (pmul n b1 s)) e) ->
  rns_dom rQ L level ptNTT pt M ->
  rns_repr rQ level (fun q => q + 1) u U -> rns_repr rQ level (fun q => q + 1) e0 E0 -> rns_repr rQ level (fun q => q + 1) e1 E1 ->
  let '(c0, c1) := pkEncryptNoP rQ pk pt ptNTT ct0 ct1 ctNTT u e0 e1 pool in
  length c0 = S level /\ length c1 = S level /\
  forall pt' ptNTT' pool', (level < length pt')%nat ->
    rns_dom rQ L level ptNTT' (Decrypt rQ sk [c0; c1] ctNTT pt' ptNTT' pool') (padd M (padd (padd (pmul n U e) E0) (pmul n E1 s))).
Proof.
  intros rQ BQ L EL sk pk pt ptNTT ct0 ct1 ctNTT u e0 e1 pool s b0 b1 e U E0 E1 M n level Hs H0 H1 Hpk HM HU HE0 HE1.
  pose proof (pk_encrypt_nop rQ BQ L EL level pk pt ptNTT ct0 ct1 ctNTT u e0 e1 pool b0 b1 U E0 E1 M eq_refl H0 H1 HM HU HE0 HE1) as ENC.
  destruct (pkEncryptNoP rQ pk pt ptNTT ct0 ct1 ctNTT u e0 e1 pool) as [c0 c1]. destruct ENC as (X0 & X1 & L0 & L1).
  split; [exact L0|]. split; [exact L1|]. intros pt' ptNTT' pool' Lp.
  apply (decrypt_two rQ BQ L EL level sk s c0 c1 _ _ ctNTT _ pt' ptNTT' pool' Hs X0 X1 L0 Lp).
  intros q Hq. fold n. apply nop_algebra. apply Hpk. exact Hq.
Qed.

Lemma sk_encrypt_decrypt : forall rQ, built_ring 9 rQ -> forall L, rN rQ = (2 ^ L)%nat ->
  forall sk pt ptNTT ct0 ct1 ctNTT e s E M,
  let n := rN rQ in let level := Nat.min (length pt - 1) (length ct0 - 1) in
  rns_ntt rQ L level canon sk (pscale W s) -> words rQ level canon ct1 ->
  rns_dom rQ L level ptNTT pt M -> rns_repr rQ level (fun q => q + 1) e E ->
  let '(c0, c1) := skEncrypt rQ sk pt ptNTT ct0 ct1 ctNTT e in
  length c0 = S level /\ length c1 = S level /\
  (ctNTT = true -> c1 = firstn (S level) ct1) /\
  forall pt' ptNTT' pool', (level < length pt')%nat ->
    rns_dom rQ L level ptNTT' (Decrypt rQ sk [c0; c1] ctNTT pt' ptNTT' pool') (padd M E).
Proof.
  intros rQ BQ L EL sk pt ptNTT ct0 ct1 ctNTT e s E M n level Hs HW HM HE.
  destruct (words_ntt rQ L level ct1 BQ EL (proj1 Hs) HW) as (A & HA).
  pose proof (sk_encrypt rQ BQ L EL level sk pt ptNTT ct0 ct1 ctNTT e A E M s eq_refl Hs HA HM HE) as ENC.
  assert (C1 : ctNTT = true -> snd (skEncrypt rQ sk pt ptNTT ct0 ct1 ctNTT e) = firstn (S level) ct1) by (intros ->; reflexivity).
  destruct (skEncrypt rQ sk pt ptNTT ct0 ct1 ctNTT e) as [c0 c1]. destruct ENC as (X0 & X1 & L0 & L1).
  split; [exact L0|]. split; [exact L1|]. split; [exact C1|]. intros pt' ptNTT' pool' Lp.
  apply (decrypt_two rQ BQ L EL level sk s c0 c1 _ _ ctNTT _ pt' ptNTT' pool' Hs X0 X1 L0 Lp).
  intros q Hq. fold n. apply peq_exact. intros k Hk. unfold padd, psub. ring.
Qed.
