(** The fast evaluator. *)
From Verif Require Import Word ModRed Arith Fermat ModRedProofs PolySpec PolyProofs Ring RingProofs NTT NTTProofs RingOps RNSSpec RowProofs OpsProofs OpsProps NTTProps Repr BasisExt CRT BasisProofs BasisProps Automorphism AutoProps Scaling Gadget GadgetSpec GadgetProofs Frlwe FrlweSetup FrlweProps FrlweSwitch FrlweTop RlweSpec Rlwe RlweBase RlweKeys RlweSwitch RlweEnc RlweTop Float64 Ckks CkksSpec CkksBase CkksConst CkksOps CkksAdd CkksMul CkksRelin CkksRot Fckks FckksSpec.

Section Fast.
  Variables (Qs Ps Ts : list Z) (gamma : nat) (p : FParams) (ks : KeySwitcher) (conv : list BasisExtender) (L : nat).
  Hypothesis (HF : fast_setup Qs Ps Ts gamma p ks conv L).
  Let rQ := fpQ p.
  Let rP := fpP p.
  Let n := rN rQ.

  Lemma f_params : exists N, sizes_ok N Qs Ps Ts gamma /\ fp_ok p N Qs Ps Ts gamma.
  Proof. destruct HF as (fuel & N & H1 & H2 & _). exists N. split; [exact H1|apply (NewFParams_ok fuel); assumption]. Qed.
  Lemma f_EL : rN rQ = (2 ^ L)%nat.
  Proof. destruct HF as (fuel & N & _ & _ & _ & _ & H). exact H. Qed.
  Lemma f_pair : ring_pair rQ rP.
  Proof.
    destruct f_params as (N & _ & Hp). split; [apply (fk_Q _ _ _ _ _ _ Hp)|]. split; [apply (fk_P _ _ _ _ _ _ Hp)|]. split; [apply (fk_nP _ _ _ _ _ _ Hp)|].
    intros x Hx Hy. pose proof (fk_nodup _ _ _ _ _ _ Hp) as ND. unfold rQ, rP in *. rewrite (fk_mQ _ _ _ _ _ _ Hp) in Hx. rewrite (fk_mP _ _ _ _ _ _ Hp) in Hy.
    revert ND Hx Hy. clear. induction Ps as [|y l IH]; intros ND Hx Hy; [exact Hy|]. cbn [app] in ND. apply NoDup_cons_iff in ND. destruct ND as [N1 N2].
    destruct Hy as [-> | Hy]; [apply N1, in_app_iff; right; exact Hx|apply IH; assumption].
  Qed.
  Lemma f_ks : ksParams ks = p.
  Proof.
    destruct HF as (fuel & N & _ & _ & HK & _). unfold NewKeySwitcher in HK.
    destruct (sequence _) as [a|]; [|discriminate]. destruct (sequence _) as [b|]; [|discriminate]. injection HK as <-. reflexivity.
  Qed.
  Let EL : rN rQ = (2 ^ L)%nat := f_EL.
  Let HP : ring_pair rQ rP := f_pair.
  Let BQ : built_ring 9 rQ := k_Q rQ rP HP.
  Let B2 : built_ring 2 rQ := one_2 rQ BQ.

  Lemma f_prefixQ : prefix rQ (maxLevel rQ) = Qs /\ S (maxLevel rQ) = length Qs /\ length (rmods rQ) = length Qs.
  Proof.
    destruct f_params as (N & _ & Hp). pose proof (fk_hQ _ _ _ _ _ _ Hp). pose proof (fk_mQ _ _ _ _ _ _ Hp) as M. fold rQ in M.
    assert (E : length (rmods rQ) = length Qs) by (rewrite moduli_length, M; reflexivity).
    assert (E' : S (maxLevel rQ) = length Qs) by (unfold maxLevel; lia). split; [|split; assumption]. unfold prefix. rewrite E', M. apply firstn_all.
  Qed.
  Lemma f_prefixP : prefix rP (maxLevel rP) = Ps /\ S (maxLevel rP) = length Ps /\ length (rmods rP) = length Ps.
  Proof.
    destruct f_params as (N & _ & Hp). pose proof (fk_hP _ _ _ _ _ _ Hp). pose proof (fk_mP _ _ _ _ _ _ Hp) as M. fold rP in M.
    assert (E : length (rmods rP) = length Ps) by (rewrite moduli_length, M; reflexivity).
    assert (E' : S (maxLevel rP) = length Ps) by (unfold maxLevel; lia). split; [|split; assumption]. unfold prefix. rewrite E', M. apply firstn_all.
  Qed.

  Lemma fast_switch level a A key s fs s' DQ Be Bs :
    (level < length Qs)%nat -> rns_repr rQ level canon a A -> fast_key conv p L key s s' Be ->
    blocks_below rQ level (maxLevel rP) DQ -> room Qs Ps Ts gamma n level DQ -> 0 <= Be -> 0 <= Bs -> pbound n Bs s ->
    exists c0 c1 C0 C1 E, switch_pools ks level a false key fs = Some (c0, c1) /\ rns_repr rQ level canon c0 C0 /\ rns_repr rQ level canon c1 C1 /\ (forall i, (i <= level)%nat -> peq n (mq (rmod rQ i)) (padd C0 (pmul n C1 s)) (padd (pmul n A s') E)) /\ switch_noise rQ rP level (maxLevel rP) DQ Be Bs E.
  Proof.
    intros Hl HA (rkey & pool0 & pool1 & (e & (K1 & K2 & b0 & b1 & Kr & Kg) & He) & ->) HDQ (DR & R1 & R2) H0 H1 Hs.
    destruct f_prefixQ as (PQ & SQ & LQ). destruct f_prefixP as (PP & SP & LP). fold rQ rP in Kr, Kg, K1, K2, He, HDQ.
    assert (EA : (maxLevel rP + 1 = length Ps)%nat) by lia. rewrite EA in *.
    assert (NB : (ceil_div (level + 1) (length Ps) <= ceil_div (maxLevel rQ + 1) (length Ps))%nat) by (unfold ceil_div; apply Nat.div_le_mono; lia).
    assert (EQ : prefix rQ level = firstn (level + 1) Qs).
    { unfold prefix. destruct f_params as (N & _ & Hp). unfold rQ. rewrite (fk_mQ _ _ _ _ _ _ Hp). f_equal. lia. }
    destruct HF as (fuel & N & X1 & X2 & X3 & X4 & X5).
    destruct (fast_switch_key fuel N Qs Ps Ts gamma p ks conv X1 X2 X3 X4 L X5 level a A (fst rkey) (snd rkey) pool0 pool1
      (fsT1 fs) (fsT2 fs) (fsT2' fs) (fsR fs) (fsR' fs) (fsQ fs) (fsQ' fs) (fsP fs) (fsP' fs) (fsPool1 fs) (fsPool2 fs) b0 b1 e s s' DQ DR Be Bs)
      as (c0 & c1 & C0 & C1 & d & rho0 & rho1 & E & Y1 & Y2 & Y3 & Y4 & Y5 & Y6 & Y7 & Y8); try assumption.
    - intros i Hi. destruct (Kr i ltac:(lia)) as [Z1 Z2]. unfold key_poly, qp_ntt in *. replace (length Qs - 1)%nat with (maxLevel rQ) by lia. replace (length Ps - 1)%nat with (maxLevel rP) by lia.
      split; assumption.
    - intros i Hi. rewrite PQ, PP in Kg. apply Kg. lia.
    - intros i Hi. rewrite <- EQ, <- EA. apply HDQ. rewrite EA. exact Hi.
    - intros i Hi. apply He. lia.
    - exists c0, c1, C0, C1, E. split; [exact Y1|]. split; [exact Y2|]. split; [exact Y3|]. split.
      + intros i Hi. destruct Y6 as [Y6 _]. specialize (Y6 i Hi). rewrite <- PQ, prefix_nth in Y6 by lia. exact Y6.
      + unfold switch_noise. rewrite PP, EA. exact Y8.
  Qed.

  Lemma f_mul_relin level0 level1 lo d B0 B1 rlk square c0 c1 out s sk sec M0 M1 DQ Be Bs :
    secret rQ L sk sec -> ct_ok rQ level0 B0 c0 -> ct_ok rQ level1 B1 c1 -> fits rQ B0 -> fits rQ B1 -> decrypts rQ L sk c0 M0 -> decrypts rQ L sk c1 M1 ->
    ctDegree c0 = 1%nat -> ctDegree c1 = 1%nat -> (square = true -> c0 = c1) -> (1 <= d <= 2)%nat -> shaped d lo out ->
    let level := Nat.min (Nat.min level0 level1) lo in
    fast_key conv p L rlk sec (ppow n sec 2) Be -> blocks_below rQ level (maxLevel rP) DQ -> room Qs Ps Ts gamma n level DQ ->
    0 <= Be -> 0 <= Bs -> pbound n Bs sec ->
    exists c E, FMulRelin ks rlk square c0 c1 out s = Some c /\ ct_ok rQ level canon c /\ ctDegree c = 1%nat /\ ctScale c = f64_mul (ctScale c0) (ctScale c1) /\ switch_noise rQ rP level (maxLevel rP) DQ Be Bs E /\ decrypts rQ L sk c (padd (pmul n M0 M1) E).
  Proof.
    intros Hs K0 K1 F0 F1 D0 D1 G0 G1 Hsq Hd HS level Hkey HDQ HR HBe HBs Hb.
    destruct (mul_correct rQ BQ L EL level0 level1 lo d B0 B1 square c0 c1 out (fsC s) sk sec M0 M1 Hs K0 K1 F0 F1 D0 D1 G0 G1 Hsq Hd HS)
      as (m & EM & KM & GM & SM & DM). fold level in KM. fold n in DM.
    unfold FMulRelin. rewrite f_ks. fold rQ. rewrite EM.
    destruct (ct_ok_repr rQ BQ L EL level canon m KM) as [C HC]. assert (N0 := proj1 (proj2 HC)).
    pose proof (ctDegree_S m (proj1 N0)) as E0. rewrite GM in E0. rewrite (proj2 (Nat.leb_gt _ _)) by lia.
    pose proof (ct_repr_level rQ L EL _ _ _ _ HC) as Ec. rewrite Ec.
    assert (Rc : forall j, (j < 3)%nat -> length (comp m j) = S level /\ rns_ntt rQ L level canon (comp m j) (C j)) by (intros j Hj; destruct HC as (_ & _ & _ & HC); apply HC; lia).
    assert (R2 : rns_repr rQ level canon (InvNTTLvl rQ level (comp m 2) (fsPool0 s)) (C 2%nat)) by (apply (e_inttc rQ BQ L EL); apply (Rc 2%nat); lia).
    assert (HlQ : (level < length Qs)%nat) by (rewrite <- (proj2 (proj2 f_prefixQ)); apply HC).
    destruct (fast_switch level _ _ rlk sec s (ppow n sec 2) DQ Be Bs HlQ R2 Hkey HDQ HR HBe HBs Hb) as (p1 & p2 & P1 & P2 & E & Y1 & Y2 & Y3 & Y6 & Y7).
    rewrite Y1. eexists. exists E. split; [reflexivity|].
    pose proof (e_nttc rQ BQ L EL level _ p1 _ Y2) as T1. pose proof (e_nttc rQ BQ L EL level _ p2 _ Y3) as T2.
    set (c := mkCt _ _ _). set (C' := fun j => nth j [padd P1 (C 0%nat); padd P2 (C 1%nat)] pzero).
    assert (HR' : ct_repr rQ L level canon c C').
    { split; [apply HC|]. split; [cbn [c ctV length]; lia|]. split; [apply HC|].
      intros [|[|j]] Hj; unfold c, comp, C'; cbn [ctV nth]; [| |cbn [c ctV length] in Hj; lia].
      - fold (comp m 0). destruct (Rc 0%nat ltac:(lia)) as [L0 R0]. split; [unfold AddLvl, op2; rewrite lvl_length; lia|].
        apply (add_canon rQ rP L HP EL); [exact (fits_canon rQ BQ L EL)|exact T1|exact R0].
      - fold (comp m 1). destruct (Rc 1%nat ltac:(lia)) as [L0 R0]. split; [unfold AddLvl, op2; rewrite lvl_length; lia|].
        apply (add_canon rQ rP L HP EL); [exact (fits_canon rQ BQ L EL)|exact T2|exact R0]. }
    split; [apply (ct_repr_ok rQ L EL) in HR'; exact HR'|]. split; [reflexivity|]. split; [exact SM|]. split; [exact Y7|].
    apply (image_decrypts rQ BQ L EL level level canon canon m C c C' sk sec (pmul n M0 M1) _ Hs HC (fits_canon rQ BQ L EL) HR' (fits_canon rQ BQ L EL)); [lia| |exact DM].
    intros i Hi V. change (length (ctV c)) with 2%nat. rewrite <- E0 in V. rewrite dval_2. unfold C'. cbn [nth].
    transitivity (padd (padd (C 0%nat) P1) (pmul n (padd (C 1%nat) P2) sec)).
    { apply padd_peq; [intros k Hk; apply eqm_eq; unfold padd; ring|]. apply pmul_peq; [intros k Hk; apply eqm_eq; unfold padd; ring|reflexivity]. }
    etransitivity; [exact (relin_alg3 rQ _ sec C P1 P2 E (Y6 i Hi))|].
    apply padd_peq; [exact V|reflexivity].
  Qed.

  (** A rotation key for k: it holds k and switches from s to the image of s under the rotation by -k. *)
  Lemma f_rotate level0 level B rtk k c out s sk sec M DQ Be Bs :
    secret rQ L sk sec -> ct_ok rQ level0 B c -> fits rQ B -> words rQ level0 (fun q => 2 * q) (comp c 1) -> decrypts rQ L sk c M ->
    ctDegree c = 1%nat -> shaped 1 level out -> (level <= level0)%nat ->
    let g := GaloisElementForColumnRotationBy rQ k in let h := GaloisElementForColumnRotationBy rQ (- k) in
    GaloisElementForColumnRotationBy rQ (to_int (rkRotidx rtk)) = g ->
    fast_key conv p L (rkValue rtk) (pauto n (Z.to_nat h) sec) sec Be ->
    blocks_below rQ level (maxLevel rP) DQ -> room Qs Ps Ts gamma n level DQ -> 0 <= Be -> 0 <= Bs -> pbound n Bs sec ->
    exists c' E, FRotate ks rtk c out s = Some c' /\ ct_ok rQ level B c' /\ ctDegree c' = 1%nat /\ ctScale c' = ctScale out /\ switch_noise rQ rP level (maxLevel rP) DQ Be Bs E /\ decrypts rQ L sk c' (padd (pauto n (Z.to_nat g) M) E).
  Proof.
    intros Hs K0 F0 Hw D0 G0 HS Hl g h Eg Hkey HDQ HR HBe HBs Hb.
    assert (NP : 0 < Z.of_nat n) by (unfold n; rewrite EL; pose proof (Nat.pow_nonzero 2 L); lia).
    destruct (gal_range 2 rQ (Z.le_refl 2) B2 k) as [Hg Og]. destruct (gal_range 2 rQ (Z.le_refl 2) B2 (- k)) as [Hh Oh]. fold g in Hg, Og. fold h in Hh, Oh.
    assert (Hgh : (g * h) mod (2 * Z.of_nat n) = 1).
    { unfold g, h, n. rewrite (gal_add 2 rQ (Z.le_refl 2) B2), Z.add_opp_diag_r. apply (gal_0 2 rQ (Z.le_refl 2) B2). }
    assert (Hg0 : 0 <= g) by lia. assert (Hh0 : 0 <= h) by lia.
    assert (OgN : Nat.odd (Z.to_nat g) = true) by (apply Nodd_Z; assumption).
    assert (Hb' : pbound n Bs (pauto n (Z.to_nat h) sec)).
    { unfold n. rewrite EL. apply (pauto_pbound L (Z.to_nat g)); [apply Nodd_Z; assumption| |unfold n in Hb; rewrite EL in Hb; exact Hb].
      apply Nat2Z.inj. rewrite !Nat2Z.inj_mod, Nat2Z.inj_mul, !Z2Nat.id by assumption. rewrite Z.mul_comm.
      clearbody g h. unfold n in Hgh, NP. rewrite EL in Hgh, NP. set (N := Z.of_nat (2 ^ L)) in *. clearbody N. clear - Hgh NP.
      transitivity (((g * h) mod (2 * N)) mod N); [|rewrite Hgh; reflexivity]. apply Zmod_div_mod; [lia|lia|]. exists 2. ring. }
    destruct (ct_ok_repr rQ BQ L EL level0 B c K0) as [C HC]. assert (N0 := proj1 (proj2 HC)).
    pose proof (ctDegree_S c (proj1 N0)) as E0. rewrite G0 in E0. pose proof (ct_repr_level rQ L EL _ _ _ _ HC) as Ec. pose proof (shaped_level _ _ _ HS) as Eo.
    assert (Hl0 : (level0 < length (rmods rQ))%nat) by apply HC.
    unfold FRotate. rewrite f_ks. fold rQ. rewrite Ec, Eo, Eg. destruct HS as (Z1 & Z2 & Z3). rewrite Z1, <- E0.
    rewrite (proj2 (Nat.ltb_ge level0 level)) by exact Hl. cbn [Nat.ltb Nat.leb orb].
    assert (Rc : forall j, (j < 2)%nat -> rns_ntt rQ L level B (comp c j) (C j)) by (intros j Hj; destruct HC as (_ & _ & _ & HC); apply (ntt_level rQ L EL level0); [exact Hl|apply HC; lia]).
    assert (R2 : rns_ntt rQ L level (fun q => 2 * q) (comp c 1) (C 1%nat)).
    { destruct (Rc 1%nat ltac:(lia)) as (A1 & A2 & A3). split; [exact A1|]. split; [exact A2|]. intros i Hi. destruct (A3 i Hi) as [A4 A5]. split; [exact A4|].
      intros j Hj. split; [|apply A5; exact Hj]. destruct Hw as [_ Hw]. apply Hw; [lia|rewrite EL; exact Hj]. }
    assert (R1 : rns_repr rQ level canon (InvNTTLvl rQ level (comp c 1) (fsPool0 s)) (C 1%nat)).
    { apply (t_invntt rQ L B2 EL); [|exact R2]. intros i Hi. destruct (one_mod rQ BQ i ltac:(lia)). lia. }
    assert (HlQ : (level < length Qs)%nat) by (rewrite <- (proj2 (proj2 f_prefixQ)); lia).
    destruct (fast_switch level _ _ (rkValue rtk) (pauto n (Z.to_nat h) sec) s sec DQ Be Bs HlQ R1 Hkey HDQ HR HBe HBs Hb') as (p1 & p2 & P1 & P2 & E & Y1 & Y2 & Y3 & Y6 & Y7).
    rewrite Y1. eexists. exists (pauto n (Z.to_nat g) E). split; [reflexivity|].
    replace (skipn 2 (ctV out)) with (@nil rows) by (symmetry; apply skipn_all2; lia). rewrite app_nil_r.
    pose proof (e_nttc rQ BQ L EL level _ p1 _ Y2) as T1. pose proof (e_nttc rQ BQ L EL level _ p2 _ Y3) as T2.
    set (c' := mkCt _ _ _). set (C' := fun j => nth j [pauto n (Z.to_nat g) (padd (C 0%nat) P1); pauto n (Z.to_nat g) P2] pzero).
    assert (HR' : ct_repr rQ L level B c' C').
    { split; [lia|]. split; [cbn [c' ctV length]; lia|]. split; [exact Z2|].
      intros [|[|j]] Hj; unfold c', comp, C'; cbn [ctV nth]; [| |cbn [c' ctV length] in Hj; lia].
      - fold (comp out 0). split; [unfold PermuteNTTLvl, PermuteNTTWithIndexLvl; rewrite lvl_length, Z3 by lia; lia|]. apply (permute_ntt_index 9); [lia|exact BQ|exact EL|exact Hg0|exact Og|].
        apply (add_canon rQ rP L HP EL); [exact F0|apply (Rc 0%nat); lia|exact T1].
      - fold (comp out 1). split; [unfold PermuteNTTLvl, PermuteNTTWithIndexLvl; rewrite lvl_length, Z3 by lia; lia|]. apply (permute_ntt_index 9); [lia|exact BQ|exact EL|exact Hg0|exact Og|].
        revert T2. apply (ntt_weaken rQ L EL). intros i Hi. apply (F0 i). lia. }
    split; [apply (ct_repr_ok rQ L EL) in HR'; exact HR'|]. split; [reflexivity|]. split; [reflexivity|].
    split; [apply (noise_auto rQ rP L EL g h); assumption|].
    apply (image_decrypts rQ BQ L EL level0 level B B c C c' C' sk sec M _ Hs HC F0 HR' F0); [exact Hl| |exact D0].
    intros i Hi V. change (length (ctV c')) with 2%nat. rewrite <- E0 in V. rewrite dval_2 in V |- *. unfold C'. cbn [nth]. specialize (Y6 i Hi). fold n in V |- *.
    clearbody g h. clear - Y6 V OgN NP Hgh Hg0 Hh0 EL.
    assert (NZ : (0 < n)%nat) by lia.
    assert (SB : peq n (mq (rmod rQ i)) (pauto n (Z.to_nat g) (pauto n (Z.to_nat h) sec)) sec).
    { rewrite pauto_comp by assumption. rewrite <- pauto_mod by assumption.
      replace ((Z.to_nat g * Z.to_nat h) mod (2 * n))%nat with 1%nat; [apply pauto_id; exact NZ|].
      apply Nat2Z.inj. rewrite Nat2Z.inj_mod, !Nat2Z.inj_mul, !Z2Nat.id by assumption. symmetry. exact Hgh. }
    transitivity (pauto n (Z.to_nat g) (padd (padd (C 0%nat) P1) (pmul n P2 (pauto n (Z.to_nat h) sec)))).
    { rewrite (pauto_add n _ _ (padd (C 0%nat) P1)), pauto_mul by assumption. apply padd_peq; [reflexivity|]. apply pmul_peq; [reflexivity|symmetry; exact SB]. }
    rewrite <- pauto_add. apply pauto_peq. rewrite <- V.
    transitivity (padd (C 0%nat) (padd P1 (pmul n P2 (pauto n (Z.to_nat h) sec)))); [intros j Hj; apply eqm_eq; unfold padd; ring|].
    transitivity (padd (C 0%nat) (padd (pmul n (C 1%nat) sec) E)); [apply padd_peq; [reflexivity|exact Y6]|]. intros j Hj. apply eqm_eq. unfold padd. ring.
  Qed.

  (** The keys of the key generator. *)
  Lemma f_gen_relin sk s e E aQ aP poolQP poolQ pool0 pool1 Be :
    sampled rQ rP (maxLevel rQ) (maxLevel rP) sk s -> randomness_ok rQ rP (maxLevel rQ) (maxLevel rP) (e 0%nat) E (aQ 0%nat) (aP 0%nat) ->
    (forall i, pbound n Be (E i)) ->
    fast_key conv p L (GenRelinKey conv p (genSecretKey rQ rP sk) e aQ aP poolQP poolQ pool0 pool1) s (ppow n s 2) Be.
  Proof.
    intros Hs HR HE. destruct (generated_relin_key rQ rP HP L EL sk s 1 e (fun _ => E) aQ aP poolQP poolQ Hs) as [_ H].
    { intros j Hj. replace j with 0%nat by lia. exact HR. }
    specialize (H 0%nat ltac:(lia)). unfold GenRelinKey. fold rQ rP. destruct (nth 0 _ _) as [key0 key1] in H |- *.
    exists (key0, key1), pool0, pool1. split; [|reflexivity]. exists E. split; [exact H|]. intros i Hi. apply HE.
  Qed.
  Lemma f_gen_rot k sk s e E aQ aP poolQP poolQ pool0 pool1 Be :
    sampled rQ rP (maxLevel rQ) (maxLevel rP) sk s -> randomness_ok rQ rP (maxLevel rQ) (maxLevel rP) e E aQ aP ->
    (forall i, pbound n Be (E i)) ->
    let rtk := GenRotKey conv p k (genSecretKey rQ rP sk) e aQ aP poolQP poolQ pool0 pool1 in
    fast_key conv p L (rkValue rtk) (pauto n (Z.to_nat (GaloisElementForColumnRotationBy rQ (- k))) s) s Be /\ GaloisElementForColumnRotationBy rQ (to_int (rkRotidx rtk)) = GaloisElementForColumnRotationBy rQ k.
  Proof.
    intros Hs HR HE rtk. destruct f_params as (N & (HN & _) & Hp). assert (EN : Z.of_nat n = N) by apply (fk_nQ _ _ _ _ _ _ Hp).
    assert (HL : (2 <= L)%nat) by exact (big_L rQ BQ L EL).
    assert (N4 : 4 <= Z.of_nat n). { unfold n. rewrite EL. change 4 with (Z.of_nat (2 ^ 2)). apply inj_le. apply Nat.pow_le_mono_r; lia. }
    set (m := Z.of_nat n / 2). assert (Hm : 2 <= m <= 2 ^ 59).
    { unfold m. split; [apply Z.div_le_lower_bound; lia|]. apply Z.div_le_upper_bound; [lia|]. rewrite EN. change (2 * 2 ^ 59) with (2 ^ 60). exact HN. }
    set (r := Z.rem k m).
    assert (Hr : Z.abs r < 2 ^ 59). { unfold r. pose proof (Z.rem_bound_abs k m). lia. }
    assert (EI : to_int (to_uint64 r) = r).
    { unfold to_int, to_uint64. change W with (2 ^ 64). destruct (Z.lt_ge_cases r 0).
      - replace (r mod 2 ^ 64) with (r + 2 ^ 64); [|apply (Z.mod_unique r (2 ^ 64) (-1)); lia]. rewrite (proj2 (Z.ltb_ge _ _)); lia.
      - rewrite Z.mod_small by lia. rewrite (proj2 (Z.ltb_lt _ _)); lia. }
    assert (ER : forall x, x mod m = k mod m -> GaloisElementForColumnRotationBy rQ x = GaloisElementForColumnRotationBy rQ k).
    { intros x Hx. apply (gal_eq_iff 2 rQ (Z.le_refl 2) B2). exact Hx. }
    assert (Em : r mod m = k mod m).
    { unfold r. rewrite (Z.quot_rem k m) at 2 by lia. rewrite (Z.mul_comm m), Z.add_comm, Z.mod_add by lia. reflexivity. }
    assert (En : GaloisElementForColumnRotationBy rQ (- r) = GaloisElementForColumnRotationBy rQ (- k)).
    { apply (gal_eq_iff 2 rQ (Z.le_refl 2) B2). fold n. fold m. rewrite <- (Z.mul_1_l r), <- (Z.mul_1_l k), <- !Z.mul_opp_l.
      rewrite (Z.mul_mod (- (1)) r), (Z.mul_mod (- (1)) k), Em by lia. reflexivity. }
    set (h := GaloisElementForColumnRotationBy rQ (- r)).
    destruct (gal_range 2 rQ (Z.le_refl 2) B2 (- r)) as [Hh Oh]. fold h in Hh, Oh.
    pose proof (generated_rot_key rQ rP HP L EL sk s h e E aQ aP poolQP poolQ ltac:(lia) Oh Hs HR) as H.
    assert (ERT : rtk = let '(key0, key1) := genrotKey rQ rP (genSecretKey rQ rP sk) h e aQ aP poolQP poolQ in mkRotKey (convertKey conv p key0 pool0, convertKey conv p key1 pool1) (to_uint64 r)) by reflexivity.
    destruct (genrotKey rQ rP (genSecretKey rQ rP sk) h e aQ aP poolQP poolQ) as [key0 key1]. rewrite ERT. cbn [rkValue rkRotidx]. split.
    - exists (key0, key1), pool0, pool1. split; [|reflexivity]. rewrite <- En. exists E. split; [exact H|]. intros i Hi. apply HE.
    - rewrite EI. apply ER. exact Em.
  Qed.
  Lemma f_rotate' level0 level B rtk k c out s sk sec M DQ Be Bs :
    secret rQ L sk sec -> ct_ok rQ level0 B c -> fits rQ B -> words rQ level0 (fun q => 2 * q) (comp c 1) -> decrypts rQ L sk c M ->
    ctDegree c = 1%nat -> shaped 1 level out -> (level <= level0)%nat ->
    fast_rotation_key conv p L k rtk sec Be ->
    blocks_below rQ level (maxLevel rP) DQ -> room Qs Ps Ts gamma n level DQ -> 0 <= Be -> 0 <= Bs -> pbound n Bs sec ->
    exists c' E, FRotate ks rtk c out s = Some c' /\ ct_ok rQ level B c' /\ ctDegree c' = 1%nat /\ ctScale c' = ctScale out /\ switch_noise rQ rP level (maxLevel rP) DQ Be Bs E /\
      decrypts rQ L sk c' (padd (pauto n (Z.to_nat (GaloisElementForColumnRotationBy rQ k)) M) E).
  Proof. intros H1 H2 H3 H4 H5 H6 H7 H8 [H9 H10]. exact (f_rotate level0 level B rtk k c out s sk sec M DQ Be Bs H1 H2 H3 H4 H5 H6 H7 H8 H10 H9). Qed.
End Fast.

Lemma rotate_new_scale ks rtk c s c' : FRotateNew ks rtk c s = Some c' -> ctScale c' = ctScale c.
Proof.
  unfold FRotateNew, FRotate. destruct (_ || _ || _)%bool; [discriminate|]. destruct (switch_pools _ _ _ _ _ _) as [[p1 p2]|]; [|discriminate].
  intros H. injection H as <-. reflexivity.
Qed.

(** SwitchKeys panics on ciphertexts in the NTT domain. *)
Lemma f_switch_keys_panics ks swk ct0 ctOut s : ctNTT ct0 = true -> FSwitchKeys ks swk ct0 ctOut s = None.
Proof. intros H. unfold FSwitchKeys, switch_pools. rewrite H. reflexivity. Qed.
