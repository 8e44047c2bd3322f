(** Multiply-and-add. *)
From Verif Require Import Word ModRed Arith Fermat ModRedProofs PolySpec PolyProofs Ring RingProofs NTT NTTProofs RingOps RNSSpec RowProofs OpsProofs OpsProps NTTProps Repr BasisExt CRT BasisProofs BasisProps Automorphism AutoProps Scaling Gadget GadgetSpec GadgetProofs Frlwe FrlweSetup FrlweProps FrlweSwitch RlweSpec Rlwe RlweBase RlweKeys RlweSwitch RlweEnc RlweTop Float64 Ckks CkksSpec CkksBase CkksConst CkksOps CkksAdd CkksMul.

Section Alg.
  Variables (n : nat) (q : Z).
  Add Ring polyring : (poly_ring n q) (setoid (peq_equiv n q) (poly_ring_ext n q)).
  Lemma mad_alg o0 o1 o2 a0 a1 b0 b1 s :
    peq n q (padd (padd (padd o0 (pmul n a0 b0)) (pmul n (padd (padd o1 (pmul n a0 b1)) (pmul n a0 b1)) s)) (pmul n (padd o2 (pmul n a1 b1)) (pmul n s s)))
      (padd (padd (padd o0 (pmul n o1 s)) (pmul n o2 (pmul n s s)))
        (padd (pmul n (padd a0 (pmul n a1 s)) (padd b0 (pmul n b1 s))) (pmul n (psub (pmul n a0 b1) (pmul n a1 b0)) s))).
  Proof. ring. Qed.
  Lemma mad_plain_alg o0 o1 p c0 c1 s :
    peq n q (padd (padd o0 (pmul n p c0)) (pmul n (padd o1 (pmul n p c1)) s)) (padd (padd o0 (pmul n o1 s)) (pmul n p (padd c0 (pmul n c1 s)))).
  Proof. ring. Qed.
  Lemma mad_square M E a0 a1 s : peq n q (padd M (padd E (pmul n (psub (pmul n a0 a1) (pmul n a1 a0)) s))) (padd M E).
  Proof. ring. Qed.
End Alg.

Section Mad.
  Variables (rQ : Ring).
  Hypothesis (BQ : built_ring 9 rQ).
  Variables (L : nat).
  Hypothesis (EL : rN rQ = (2 ^ L)%nat).
  Let n := rN rQ.
  Let q i := mq (rmod rQ i).

  Lemma ntt_same level B p X Y : fits rQ B -> rns_ntt rQ L level B p X -> rns_ntt rQ L level B p Y -> forall i, (i <= level)%nat -> peq n (q i) X Y.
  Proof.
    intros HB HX HY. assert (Hl := proj1 HX).
    assert (HR : forall Z, rns_ntt rQ L level B p Z -> rns_ntt rQ L level canon (ReduceLvl rQ level p p) Z).
    { intros Z HZ. apply (n_reduce rQ L (one_2 rQ BQ) EL level B); [|exact HZ]. intros i Hi. apply (fits_W rQ BQ L EL B HB). lia. }
    exact (ntt_unique rQ L level (ReduceLvl rQ level p p) X Y BQ EL (HR X HX) (HR Y HY)).
  Qed.

  Lemma mul_and_add level0 level1 level B0 B1 c0 c1 out s sk sec M0 M1 Mo : secret rQ L sk sec ->
    ct_ok rQ level0 B0 c0 -> ct_ok rQ level1 B1 c1 -> ct_ok rQ level canon out -> fits rQ B0 -> fits rQ B1 ->
    decrypts rQ L sk c0 M0 -> decrypts rQ L sk c1 M1 -> decrypts rQ L sk out Mo ->
    ctDegree c0 = 1%nat -> ctDegree c1 = 1%nat -> ctDegree out = 2%nat -> (level <= level0)%nat -> (level <= level1)%nat ->
    f64_lt (ctScale out) (f64_mul (ctScale c0) (ctScale c1)) = false ->
    exists c, MulAndAdd rQ c0 c1 out s = Some c /\ ct_ok rQ level canon c /\ ctDegree c = 2%nat /\ ctScale c = ctScale out /\
      forall a0 a1 b0 b1, rns_ntt rQ L level B0 (comp c0 0) a0 -> rns_ntt rQ L level B0 (comp c0 1) a1 ->
        rns_ntt rQ L level B1 (comp c1 0) b0 -> rns_ntt rQ L level B1 (comp c1 1) b1 ->
        decrypts rQ L sk c (padd Mo (padd (pmul n M0 M1) (pmul n (psub (pmul n a0 b1) (pmul n a1 b0)) sec))).
  Proof.
    intros Hs K0 K1 KO F0 F1 D0 D1 DO G0 G1 GO L0 L1 Hsc.
    destruct (ct_ok_repr rQ BQ L EL level0 B0 c0 K0) as [C0 HC0]. destruct (ct_ok_repr rQ BQ L EL level1 B1 c1 K1) as [C1 HC1].
    destruct (ct_ok_repr rQ BQ L EL level canon out KO) as [CO HCO].
    pose proof (ct_repr_level rQ L EL _ _ _ _ HC0) as V0. pose proof (ct_repr_level rQ L EL _ _ _ _ HC1) as V1. pose proof (ct_repr_level rQ L EL _ _ _ _ HCO) as VO.
    assert (N0 := proj1 (proj2 HC0)). assert (N1 := proj1 (proj2 HC1)). assert (NO := proj1 (proj2 HCO)).
    pose proof (ctDegree_S c0 (proj1 N0)) as E0. pose proof (ctDegree_S c1 (proj1 N1)) as E1. pose proof (ctDegree_S out (proj1 NO)) as EO. rewrite G0 in E0. rewrite G1 in E1. rewrite GO in EO.
    assert (EP : mul_prelude c0 c1 out = Some (level, out)).
    { unfold mul_prelude. rewrite (checks_pass c0 c1 out out 2 (eq_sym EO) (proj1 (proj2 (proj2 HC0))) (proj1 (proj2 (proj2 HC1)))) by lia.
      rewrite V0, V1, VO, G0, G1. cbn [Nat.ltb Nat.leb orb]. replace (Nat.min (Nat.min level0 level1) level) with level by lia.
      unfold drop_to. rewrite VO, Nat.ltb_irrefl. reflexivity. }
    unfold MulAndAdd. rewrite EP, Hsc, G0, G1, GO. cbn [Nat.add Nat.eqb Nat.ltb Nat.leb].
    assert (Ra : forall j, (j < 2)%nat -> rns_ntt rQ L level B0 (comp c0 j) (C0 j)) by (intros j Hj; destruct HC0 as (_ & _ & _ & HA); apply (ntt_level rQ L EL level0); [exact L0|apply HA; lia]).
    assert (Rb : forall j, (j < 2)%nat -> rns_ntt rQ L level B1 (comp c1 j) (C1 j)) by (intros j Hj; destruct HC1 as (_ & _ & _ & HA); apply (ntt_level rQ L EL level1); [exact L1|apply HA; lia]).
    assert (Ro : forall j, (j < 3)%nat -> length (comp out j) = S level /\ rns_ntt rQ L level canon (comp out j) (CO j)) by (intros j Hj; destruct HCO as (_ & _ & _ & HA); apply HA; lia).
    pose proof (mform_ct rQ BQ L EL level B0 (comp c0 0) (sMul0 s) (C0 0%nat) F0 (Ra 0%nat ltac:(lia))) as M0'.
    pose proof (mform_ct rQ BQ L EL level B0 (comp c0 1) (sMul1 s) (C0 1%nat) F0 (Ra 1%nat ltac:(lia))) as M1'.
    unfold add_tensor. set (x0 := MFormLvl rQ level (comp c0 0) (sMul0 s)) in *. set (x1 := MFormLvl rQ level (comp c0 1) (sMul1 s)) in *. clearbody x0 x1.
    eexists. split; [reflexivity|]. replace (skipn 3 (ctV out)) with (@nil rows) by (symmetry; apply skipn_all2; lia). rewrite app_nil_r.
    set (c := mkCt _ _ _).
    set (C := fun j => nth j [padd (CO 0%nat) (pmul n (C0 0%nat) (C1 0%nat)); padd (padd (CO 1%nat) (pmul n (C0 0%nat) (C1 1%nat))) (pmul n (C0 0%nat) (C1 1%nat)); padd (CO 2%nat) (pmul n (C0 1%nat) (C1 1%nat))] pzero).
    assert (HR : ct_repr rQ L level canon c C).
    { split; [apply HCO|]. split; [cbn [c ctV length]; lia|]. split; [apply HCO|].
      assert (LM : forall a b o, length (MulCoeffsMontgomeryAndAddLvl rQ level a b o) = Nat.max (S level) (length o)) by (intros; unfold MulCoeffsMontgomeryAndAddLvl, op3; apply lvl_length).
      destruct (Ro 0%nat ltac:(lia)) as [O0 P0]. destruct (Ro 1%nat ltac:(lia)) as [O1 P1]. destruct (Ro 2%nat ltac:(lia)) as [O2 P2].
      intros [|[|[|j]]] Hj; unfold c, C; unfold comp at 1 2; cbn [ctV nth]; [| | |cbn [c ctV length] in Hj; lia]; (split; [rewrite !LM, ?O0, ?O1, ?O2; lia|]).
      - apply (muladd_ct rQ BQ L EL level B1); [exact F1|exact M0'|apply Rb; lia|exact P0].
      - apply (muladd_ct rQ BQ L EL level B1); [exact F1|exact M0'|apply Rb; lia|]. apply (muladd_ct rQ BQ L EL level B1); [exact F1|exact M0'|apply Rb; lia|exact P1].
      - apply (muladd_ct rQ BQ L EL level B1); [exact F1|exact M1'|apply Rb; lia|exact P2]. }
    split; [apply (ct_repr_ok rQ L EL) in HR; exact HR|]. split; [reflexivity|]. split; [reflexivity|].
    intros a0 a1 b0 b1 A0 A1 X0 X1.
    apply (decrypts_iff rQ BQ L EL level canon c C sk sec _ HR (fits_canon rQ BQ L EL) Hs). intros i Hi. change (length (ctV c)) with 3%nat.
    pose proof (proj1 (decrypts_iff rQ BQ L EL level0 B0 c0 C0 sk sec M0 HC0 F0 Hs) D0 i ltac:(lia)) as Z0.
    pose proof (proj1 (decrypts_iff rQ BQ L EL level1 B1 c1 C1 sk sec M1 HC1 F1 Hs) D1 i ltac:(lia)) as Z1.
    pose proof (proj1 (decrypts_iff rQ BQ L EL level canon out CO sk sec Mo HCO (fits_canon rQ BQ L EL) Hs) DO i Hi) as ZO.
    rewrite <- E0, dval_2 in Z0. rewrite <- E1, dval_2 in Z1. rewrite <- EO, dval_3 in ZO.
    pose proof (ntt_same level B0 _ _ _ F0 A0 (Ra 0%nat ltac:(lia)) i Hi) as Y0. pose proof (ntt_same level B0 _ _ _ F0 A1 (Ra 1%nat ltac:(lia)) i Hi) as Y1.
    pose proof (ntt_same level B1 _ _ _ F1 X0 (Rb 0%nat ltac:(lia)) i Hi) as Y2. pose proof (ntt_same level B1 _ _ _ F1 X1 (Rb 1%nat ltac:(lia)) i Hi) as Y3.
    etransitivity; [exact (dval_3 rQ (q i) sec C)|]. unfold C. cbn [nth]. etransitivity; [apply mad_alg|].
    apply padd_peq; [exact ZO|]. apply padd_peq; [apply pmul_peq; assumption|]. apply pmul_peq; [|reflexivity].
    apply psub_peq; apply pmul_peq; symmetry; assumption.
  Qed.

  Lemma mul_and_add_square level0 level B0 c0 out s sk sec M0 Mo : secret rQ L sk sec ->
    ct_ok rQ level0 B0 c0 -> ct_ok rQ level canon out -> fits rQ B0 ->
    decrypts rQ L sk c0 M0 -> decrypts rQ L sk out Mo ->
    ctDegree c0 = 1%nat -> ctDegree out = 2%nat -> (level <= level0)%nat ->
    f64_lt (ctScale out) (f64_mul (ctScale c0) (ctScale c0)) = false ->
    exists c, MulAndAdd rQ c0 c0 out s = Some c /\ ct_ok rQ level canon c /\ ctDegree c = 2%nat /\ ctScale c = ctScale out /\
      decrypts rQ L sk c (padd Mo (pmul n M0 M0)).
  Proof.
    intros Hs K0 KO F0 D0 DO G0 GO L0 Hsc.
    destruct (mul_and_add level0 level0 level B0 B0 c0 c0 out s sk sec M0 M0 Mo) as (c & X1 & X2 & X3 & X4 & X5); try assumption.
    exists c. split; [exact X1|]. split; [exact X2|]. split; [exact X3|]. split; [exact X4|].
    destruct (ct_ok_repr rQ BQ L EL level0 B0 c0 K0) as [C0 HC0]. destruct (ct_ok_repr rQ BQ L EL level canon c X2) as [C HC].
    assert (N0 := proj1 (proj2 HC0)). pose proof (ctDegree_S c0 (proj1 N0)) as E0. rewrite G0 in E0.
    assert (Ra : forall j, (j < 2)%nat -> rns_ntt rQ L level B0 (comp c0 j) (C0 j)) by (intros j Hj; destruct HC0 as (_ & _ & _ & HA); apply (ntt_level rQ L EL level0); [exact L0|apply HA; lia]).
    specialize (X5 _ _ _ _ (Ra 0%nat ltac:(lia)) (Ra 1%nat ltac:(lia)) (Ra 0%nat ltac:(lia)) (Ra 1%nat ltac:(lia))).
    apply (ct_repr_peq rQ BQ L EL level canon c C sk sec _ _ HC (fits_canon rQ BQ L EL) Hs X5).
    intros i Hi. apply mad_square.
  Qed.

  Lemma mul_and_add_plain levelp levelc level Bp Bc p c out s sk sec Mp Mc Mo first : secret rQ L sk sec ->
    ct_ok rQ levelp Bp p -> ct_ok rQ levelc Bc c -> ct_ok rQ level canon out -> fits rQ Bp -> fits rQ Bc ->
    decrypts rQ L sk p Mp -> decrypts rQ L sk c Mc -> decrypts rQ L sk out Mo ->
    ctDegree p = 0%nat -> ctDegree c = 1%nat -> ctDegree out = 1%nat -> (level <= levelp)%nat -> (level <= levelc)%nat ->
    let op0 := if first : bool then p else c in let op1 := if first then c else p in
    f64_lt (ctScale out) (f64_mul (ctScale op0) (ctScale op1)) = false ->
    exists c', MulAndAdd rQ op0 op1 out s = Some c' /\ ct_ok rQ level canon c' /\ ctDegree c' = 1%nat /\ ctScale c' = ctScale out /\
      decrypts rQ L sk c' (padd Mo (pmul n Mp Mc)).
  Proof.
    intros Hs K0 K1 KO F0 F1 D0 D1 DO G0 G1 GO L0 L1 op0 op1 Hsc.
    destruct (ct_ok_repr rQ BQ L EL levelp Bp p K0) as [P HP]. destruct (ct_ok_repr rQ BQ L EL levelc Bc c K1) as [C HC].
    destruct (ct_ok_repr rQ BQ L EL level canon out KO) as [CO HCO].
    pose proof (ct_repr_level rQ L EL _ _ _ _ HP) as V0. pose proof (ct_repr_level rQ L EL _ _ _ _ HC) as V1. pose proof (ct_repr_level rQ L EL _ _ _ _ HCO) as VO.
    assert (N0 := proj1 (proj2 HP)). assert (N1 := proj1 (proj2 HC)). assert (NO := proj1 (proj2 HCO)).
    pose proof (ctDegree_S p (proj1 N0)) as E0. pose proof (ctDegree_S c (proj1 N1)) as E1. pose proof (ctDegree_S out (proj1 NO)) as EO. rewrite G0 in E0. rewrite G1 in E1. rewrite GO in EO.
    assert (EP : mul_prelude op0 op1 out = Some (level, out)).
    { unfold mul_prelude. assert (T0 := proj1 (proj2 (proj2 HP))). assert (T1 := proj1 (proj2 (proj2 HC))).
      rewrite (checks_pass op0 op1 out out 1 (eq_sym EO)) by (unfold op0, op1; destruct first; try assumption; lia).
      replace (Nat.min (Nat.min (ctLevel op0) (ctLevel op1)) (ctLevel out)) with level by (unfold op0, op1; destruct first; lia).
      assert (X : Nat.ltb 1 (ctDegree op0) || Nat.ltb 1 (ctDegree op1) = false) by (unfold op0, op1; destruct first; rewrite G0, G1; reflexivity). rewrite X.
      unfold drop_to. rewrite VO, Nat.ltb_irrefl. reflexivity. }
    unfold MulAndAdd. rewrite EP, Hsc.
    assert (X : Nat.eqb (ctDegree op0 + ctDegree op1) 2 = false) by (unfold op0, op1; destruct first; rewrite G0, G1; reflexivity). rewrite X.
    assert (Y : (if Nat.eqb (ctDegree op0) 1 then (op1, op0) else (op0, op1)) = (p, c)) by (unfold op0, op1; destruct first; rewrite ?G0, ?G1; reflexivity). rewrite Y. clear X Y.
    assert (Rp : rns_ntt rQ L level Bp (comp p 0) (P 0%nat)) by (destruct HP as (_ & _ & _ & HA); apply (ntt_level rQ L EL levelp); [exact L0|apply HA; lia]).
    assert (Rc : forall j, (j < 2)%nat -> rns_ntt rQ L level Bc (comp c j) (C j)) by (intros j Hj; destruct HC as (_ & _ & _ & HA); apply (ntt_level rQ L EL levelc); [exact L1|apply HA; lia]).
    assert (Ro : forall j, (j < 2)%nat -> length (comp out j) = S level /\ rns_ntt rQ L level canon (comp out j) (CO j)) by (intros j Hj; destruct HCO as (_ & _ & _ & HA); apply HA; lia).
    pose proof (mform_ct rQ BQ L EL level Bp (comp p 0) (sMul0 s) (P 0%nat) F0 Rp) as M0'.
    set (x0 := MFormLvl rQ level (comp p 0) (sMul0 s)) in *. clearbody x0.
    eexists. split; [reflexivity|]. replace (skipn 2 (ctV out)) with (@nil rows) by (symmetry; apply skipn_all2; lia). rewrite app_nil_r.
    set (c' := mkCt _ _ _).
    set (C' := fun j => padd (CO j) (pmul n (P 0%nat) (C j))).
    assert (HR : ct_repr rQ L level canon c' C').
    { split; [apply HCO|]. split; [cbn [c' ctV length]; lia|]. split; [apply HCO|].
      assert (LM : forall a b o, length (MulCoeffsMontgomeryAndAddLvl rQ level a b o) = Nat.max (S level) (length o)) by (intros; unfold MulCoeffsMontgomeryAndAddLvl, op3; apply lvl_length).
      destruct (Ro 0%nat ltac:(lia)) as [O0 P0]. destruct (Ro 1%nat ltac:(lia)) as [O1 P1].
      intros [|[|j]] Hj; unfold c', C'; unfold comp at 1 2; cbn [ctV nth]; [| |cbn [c' ctV length] in Hj; lia]; (split; [rewrite !LM, ?O0, ?O1; lia|]).
      - apply (muladd_ct rQ BQ L EL level Bc); [exact F1|exact M0'|apply Rc; lia|exact P0].
      - apply (muladd_ct rQ BQ L EL level Bc); [exact F1|exact M0'|apply Rc; lia|exact P1]. }
    split; [apply (ct_repr_ok rQ L EL) in HR; exact HR|]. split; [reflexivity|]. split; [reflexivity|].
    apply (decrypts_iff rQ BQ L EL level canon c' C' sk sec _ HR (fits_canon rQ BQ L EL) Hs). intros i Hi. change (length (ctV c')) with 2%nat.
    pose proof (proj1 (decrypts_iff rQ BQ L EL levelp Bp p P sk sec Mp HP F0 Hs) D0 i ltac:(lia)) as Z0.
    pose proof (proj1 (decrypts_iff rQ BQ L EL levelc Bc c C sk sec Mc HC F1 Hs) D1 i ltac:(lia)) as Z1.
    pose proof (proj1 (decrypts_iff rQ BQ L EL level canon out CO sk sec Mo HCO (fits_canon rQ BQ L EL) Hs) DO i Hi) as ZO.
    rewrite <- E0, dval_1 in Z0. rewrite <- E1, dval_2 in Z1. rewrite <- EO, dval_2 in ZO.
    etransitivity; [exact (dval_2 rQ (q i) sec C')|]. unfold C'. etransitivity; [apply mad_plain_alg|].
    apply padd_peq; [exact ZO|]. apply pmul_peq; assumption.
  Qed.
End Mad.
