(** Products and relinearization. *)
From Verif Require Import Word ModRed Arith Fermat ModRedProofs PolySpec PolyProofs Ring RingProofs NTT NTTProofs RingOps RNSSpec RowProofs OpsProofs OpsProps NTTProps Repr BasisExt CRT BasisProofs BasisProps Automorphism AutoProps Scaling Gadget GadgetSpec GadgetProofs Frlwe FrlweSetup FrlweProps FrlweSwitch RlweSpec Rlwe RlweBase RlweKeys RlweSwitch RlweEnc RlweTop Float64 Ckks CkksSpec CkksBase CkksConst CkksOps CkksAdd.

Lemma muladd_comm r level p1 p2 p3 : MulCoeffsMontgomeryAndAddLvl r level p1 p2 p3 = MulCoeffsMontgomeryAndAddLvl r level p2 p1 p3.
Proof. apply op3_comm. intros. rewrite MRed_comm. reflexivity. Qed.

Lemma two_lengths (l : list rows) : length l = 2%nat -> exists x y, l = [x; y].
Proof. destruct l as [|x [|y [|z l]]]; cbn [length]; try lia. intros _. exists x, y. reflexivity. Qed.


Section Switch.
  Variables (rQ rP : Ring) (L : nat).
  Hypothesis (HP : ring_pair rQ rP) (EL : rN rQ = (2 ^ L)%nat).
  Let n := rN rQ.

  Lemma switch_simple levelK levelQ levelP cx isNTT A (key : swkey) poolInv c2 pool1P pool2P p0 p1 s s' DQ Be Bs :
    key_levels rQ rP levelK levelP -> (levelQ <= levelK)%nat -> rns_dom rQ L levelQ isNTT cx A ->
    swkey_ok rQ rP L levelK levelP key s s' Be -> blocks_below rQ levelQ levelP DQ -> 0 <= Be -> 0 <= Bs -> pbound n Bs s ->
    exists c0 c1 C0 C1 E,
      SwitchKeysInPlace rQ rP levelQ levelP cx isNTT (fst key) (snd key) poolInv c2 pool1P pool2P p0 p1 = Some (c0, c1) /\
      rns_dom rQ L levelQ isNTT c0 C0 /\ rns_dom rQ L levelQ isNTT c1 C1 /\
      length c0 = Nat.max (S levelQ) (length p0) /\ length c1 = Nat.max (S levelQ) (length p1) /\
      (forall i, (i <= levelQ)%nat -> peq n (mq (rmod rQ i)) (padd C0 (pmul n C1 s)) (padd (pmul n A s') E)) /\
      switch_noise rQ rP levelQ levelP DQ Be Bs E.
  Proof.
    intros (K1 & K2 & K3) Hl HA (e & He & HBe) HDQ B0 B1 Hs.
    assert (NB : (ceil_div (levelQ + 1) (levelP + 1) <= ceil_div (levelK + 1) (levelP + 1))%nat).
    { unfold ceil_div. apply Nat.div_le_mono; lia. }
    destruct (key_switching rQ rP HP L EL levelK levelQ levelP cx isNTT A (fst key) (snd key) poolInv c2 pool1P pool2P p0 p1 e s s' DQ Be Bs Hl K1 K2 K3 HA He HDQ B0 B1)
      as (c0 & c1 & C0 & C1 & d & rho0 & rho1 & E & X1 & X2 & X3 & X4 & X5 & X6 & X7 & X8).
    - intros i Hi. apply HBe. lia.
    - exact Hs.
    - exists c0, c1, C0, C1, E. split; [exact X1|]. split; [exact X2|]. split; [exact X3|]. split; [apply X4|]. split; [apply X5|]. split; [|exact X8].
      intros i Hi. destruct X6 as [X6 _]. specialize (X6 i Hi). rewrite prefix_nth in X6 by lia. exact X6.
  Qed.
End Switch.

Section Mul.
  Variables (rQ : Ring).
  Hypothesis (BQ : built_ring 9 rQ).
  Variables (L : nat).
  Hypothesis (EL : rN rQ = (2 ^ L)%nat).
  Let n := rN rQ.
  Let B2 : built_ring 2 rQ := one_2 rQ BQ.
  Let q i := mq (rmod rQ i).

  Lemma canon_W B i : fits rQ B -> (i < length (rmods rQ))%nat -> B (q i) * q i <= q i * W.
  Proof.
    intros HB Hi. pose proof (fits_W rQ BQ L EL B HB i Hi) as H. destruct (one_mod rQ BQ i Hi). rewrite Z.mul_comm. apply Z.mul_le_mono_nonneg_l; [unfold q; lia|exact H].
  Qed.
  Lemma canon_W' B i : fits rQ B -> (i < length (rmods rQ))%nat -> q i * B (q i) <= q i * W.
  Proof. intros. rewrite Z.mul_comm. apply canon_W; assumption. Qed.

  Lemma mform_ct level B p out X : fits rQ B -> rns_ntt rQ L level B p X -> rns_ntt rQ L level canon (MFormLvl rQ level p out) (pscale W X).
  Proof. intros HB H. assert (Hl := proj1 H). revert H. apply (n_mform rQ L B2 EL). intros i Hi. apply (fits_W rQ BQ L EL B HB). lia. Qed.
  Lemma mul_ct level B p1 p2 out X Y : fits rQ B -> rns_ntt rQ L level canon p1 (pscale W X) -> rns_ntt rQ L level B p2 Y ->
    rns_ntt rQ L level canon (MulCoeffsMontgomeryLvl rQ level p1 p2 out) (pmul n X Y).
  Proof. intros HB H. assert (Hl := proj1 H). revert H. apply (n_mulmont' rQ L B2 EL). intros i Hi. unfold canon. apply canon_W'; [exact HB|lia]. Qed.
  Lemma muladd_ct level B p1 p2 p3 X Y V : fits rQ B -> rns_ntt rQ L level canon p1 (pscale W X) -> rns_ntt rQ L level B p2 Y -> rns_ntt rQ L level canon p3 V ->
    rns_ntt rQ L level canon (MulCoeffsMontgomeryAndAddLvl rQ level p1 p2 p3) (padd V (pmul n X Y)).
  Proof.
    intros HB H1 H2 H3. assert (Hl := proj1 H1). rewrite muladd_comm.
    apply (ntt_peq rQ L EL level canon _ (padd V (pmul n Y X))).
    - intros i Hi. apply padd_peq; [reflexivity|]. apply pmul_comm.
    - apply (n_mulmontadd rQ L B2 EL level B canon canon); [|assumption|assumption|assumption].
      intros i Hi. destruct (one_mod rQ BQ i ltac:(lia)). split; [apply canon_W; [exact HB|lia]|]. unfold canon. lia.
  Qed.

  Lemma tensor_repr level0 level1 level B0 B1 square a b A D s c0 c1 c2 :
    ct_repr rQ L level0 B0 a A -> ct_repr rQ L level1 B1 b D -> fits rQ B0 -> fits rQ B1 -> (level <= level0)%nat -> (level <= level1)%nat ->
    length (ctV a) = 2%nat -> length (ctV b) = 2%nat -> (square = true -> a = b /\ A = D) ->
    exists t0 t1 t2, tensor rQ level square a b s c0 c1 c2 = (t0, t1, t2) /\
      length t0 = Nat.max (S level) (length c0) /\ length t1 = Nat.max (S level) (length c1) /\ length t2 = Nat.max (S level) (length c2) /\
      rns_ntt rQ L level canon t0 (pmul n (A 0%nat) (D 0%nat)) /\
      rns_ntt rQ L level canon t1 (padd (pmul n (A 0%nat) (D 1%nat)) (pmul n (A 1%nat) (D 0%nat))) /\
      rns_ntt rQ L level canon t2 (pmul n (A 1%nat) (D 1%nat)).
  Proof.
    intros HA HD F0 F1 L0 L1 La Lb Hsq.
    assert (Ra : forall j, (j < 2)%nat -> rns_ntt rQ L level B0 (comp a j) (A j)) by (intros j Hj; destruct HA as (_ & _ & _ & HA); apply (ntt_level rQ L EL level0); [exact L0|apply HA; lia]).
    assert (Rb : forall j, (j < 2)%nat -> rns_ntt rQ L level B1 (comp b j) (D j)) by (intros j Hj; destruct HD as (_ & _ & _ & HD); apply (ntt_level rQ L EL level1); [exact L1|apply HD; lia]).
    pose proof (mform_ct level B0 (comp a 0) (sMul0 s) (A 0%nat) F0 (Ra 0%nat ltac:(lia))) as M0.
    pose proof (mform_ct level B0 (comp a 1) (sMul1 s) (A 1%nat) F0 (Ra 1%nat ltac:(lia))) as M1.
    unfold tensor. set (c00 := MFormLvl rQ level (comp a 0) (sMul0 s)) in *. set (c01 := MFormLvl rQ level (comp a 1) (sMul1 s)) in *. clearbody c00 c01.
    do 3 eexists. split; [reflexivity|].
    assert (LQ : (level < length (rmods rQ))%nat) by (destruct HA; lia).
    split; [unfold MulCoeffsMontgomeryLvl, op2; apply lvl_length|].
    split. { destruct square; [unfold AddLvl, op2; rewrite lvl_length|unfold MulCoeffsMontgomeryAndAddLvl, op3; rewrite lvl_length]; unfold MulCoeffsMontgomeryLvl, op2; rewrite lvl_length; lia. }
    split; [unfold MulCoeffsMontgomeryLvl, op2; apply lvl_length|].
    split; [apply (mul_ct level B1); [exact F1|exact M0|apply Rb; lia]|].
    pose proof (mul_ct level B1 c00 (comp b 1) c1 _ _ F1 M0 (Rb 1%nat ltac:(lia))) as T1.
    split; [|apply (mul_ct level B1); [exact F1|exact M1|apply Rb; lia]].
    destruct square.
    - destruct (Hsq eq_refl) as [_ EA]. rewrite <- EA in *.
      apply (ntt_peq rQ L EL level canon _ (padd (pmul n (A 0%nat) (A 1%nat)) (pmul n (A 0%nat) (A 1%nat)))).
      + intros i Hi. apply padd_peq; [reflexivity|]. apply pmul_comm.
      + apply (n_add rQ L B2 EL level canon canon); [|exact T1|exact T1]. intros i Hi. destruct (one_mod rQ BQ i ltac:(lia)). unfold canon. lia.
    - apply (muladd_ct level B1); [exact F1|exact M1|apply Rb; lia|exact T1].
  Qed.

  Lemma comp_app2 (x y : rows) l sc t j : (j < 2)%nat -> comp (mkCt ([x; y] ++ l) sc t) j = nth j [x; y] [].
  Proof. intros Hj. unfold comp. cbn [ctV]. apply app_nth1. exact Hj. Qed.

  Lemma prelude_ok level0 level1 lo d B0 B1 c0 c1 C0 C1 out : ct_repr rQ L level0 B0 c0 C0 -> ct_repr rQ L level1 B1 c1 C1 ->
    (ctDegree c0 <= 1)%nat -> (ctDegree c1 <= 1)%nat -> (1 <= ctDegree c0 + ctDegree c1)%nat -> (1 <= d)%nat -> shaped d lo out ->
    let level := Nat.min (Nat.min level0 level1) lo in
    exists out', mul_prelude c0 c1 out = Some (level, out') /\ shaped d level out'.
  Proof.
    intros H0 H1 D0 D1 Hd Hd1 HS level. pose proof (ct_repr_level rQ L EL _ _ _ _ H0) as E0. pose proof (ct_repr_level rQ L EL _ _ _ _ H1) as E1.
    pose proof (shaped_level _ _ _ HS) as E2. exists (drop_to level out). split.
    - unfold mul_prelude. rewrite (checks_pass c0 c1 out out d (proj1 HS) (proj1 (proj2 (proj2 H0))) (proj1 (proj2 (proj2 H1))) Hd) by lia.
      rewrite E0, E1, E2. fold level. rewrite (proj2 (Nat.ltb_ge 1 (ctDegree c0)) D0), (proj2 (Nat.ltb_ge 1 (ctDegree c1)) D1). reflexivity.
    - apply (shaped_drop_to d lo); [exact HS|unfold level; lia].
  Qed.

  Lemma resize_up level out : shaped 1 level out -> shaped 2 level (Resize (rN rQ) 2 out).
  Proof.
    intros HS. pose proof (shaped_level _ _ _ HS) as El. destruct HS as (S1 & S2 & S3). unfold Resize, ctDegree. rewrite S1, El. cbn [Nat.sub Nat.ltb Nat.leb].
    split; [cbn [ctV]; rewrite app_length, repeat_length, S1; reflexivity|]. split; [exact S2|]. intros j Hj. unfold comp. cbn [ctV].
    destruct (Nat.eq_dec j 2) as [-> | Hn].
    - rewrite app_nth2 by lia. rewrite S1. cbn [Nat.sub repeat nth]. unfold zero_rows. rewrite repeat_length. reflexivity.
    - rewrite app_nth1 by lia. apply S3. lia.
  Qed.

  Lemma ct_repr_bound level B B' c C : ct_repr rQ L level B c C -> ct_ok rQ level B' c -> ct_repr rQ L level B' c C.
  Proof.
    intros (H1 & H2 & H3 & H4) (_ & _ & _ & K4). split; [exact H1|]. split; [exact H2|]. split; [exact H3|]. intros j Hj. destruct (H4 j Hj) as (A1 & A2 & A3 & A4).
    destruct (K4 j Hj) as (_ & _ & W1). split; [exact A1|]. split; [exact A2|]. split; [exact A3|]. intros i Hi. destruct (A4 i Hi) as [X1 X2]. destruct (W1 i Hi) as [_ W2].
    split; [exact X1|]. intros k Hk. split; [apply W2; rewrite EL; exact Hk|apply X2; exact Hk].
  Qed.
  Lemma both_repr level0 level1 B0 B1 (square : bool) c0 c1 : ct_ok rQ level0 B0 c0 -> ct_ok rQ level1 B1 c1 -> (square = true -> c0 = c1) ->
    exists C0 C1, ct_repr rQ L level0 B0 c0 C0 /\ ct_repr rQ L level1 B1 c1 C1 /\ (square = true -> (c0 = c1) /\ (C0 = C1)).
  Proof.
    intros K0 K1 Hsq. destruct (ct_ok_repr rQ BQ L EL level0 B0 c0 K0) as [C0 HC0]. destruct (ct_ok_repr rQ BQ L EL level1 B1 c1 K1) as [C1 HC1].
    destruct square.
    - pose proof (Hsq eq_refl) as E. exists C0, C0. split; [exact HC0|]. split; [|intros _; split; [exact E|reflexivity]]. rewrite <- E in *.
      assert (El : level1 = level0) by (rewrite <- (ct_ok_level rQ L EL _ _ _ K0), <- (ct_ok_level rQ L EL _ _ _ K1); reflexivity). rewrite El in *.
      apply (ct_repr_bound level0 B0); assumption.
    - exists C0, C1. split; [exact HC0|]. split; [exact HC1|]. discriminate.
  Qed.

  (** Ciphertext times ciphertext, without relinearization. *)
  Lemma mul_correct level0 level1 lo d B0 B1 square c0 c1 out s sk sec M0 M1 : secret rQ L sk sec ->
    ct_ok rQ level0 B0 c0 -> ct_ok rQ level1 B1 c1 -> fits rQ B0 -> fits rQ B1 -> decrypts rQ L sk c0 M0 -> decrypts rQ L sk c1 M1 ->
    ctDegree c0 = 1%nat -> ctDegree c1 = 1%nat -> (square = true -> c0 = c1) -> (1 <= d <= 2)%nat -> shaped d lo out ->
    let level := Nat.min (Nat.min level0 level1) lo in
    exists c, Mul rQ square c0 c1 out s = Some c /\ ct_ok rQ level canon c /\ ctDegree c = 2%nat /\ ctScale c = f64_mul (ctScale c0) (ctScale c1) /\ decrypts rQ L sk c (pmul n M0 M1).
  Proof.
    intros Hs K0 K1 F0 F1 D0 D1 G0 G1 Hsq Hd HS level.
    destruct (both_repr level0 level1 B0 B1 square c0 c1 K0 K1 Hsq) as (C0 & C1 & HC0 & HC1 & HE).
    assert (N0 := proj1 (proj2 HC0)). assert (N1 := proj1 (proj2 HC1)).
    pose proof (ctDegree_S c0 (proj1 N0)) as E0. pose proof (ctDegree_S c1 (proj1 N1)) as E1. rewrite G0 in E0. rewrite G1 in E1.
    destruct (prelude_ok level0 level1 lo d B0 B1 c0 c1 C0 C1 out HC0 HC1) as (out1 & EP & S1); try lia; [exact HS|]. fold level in EP, S1.
    unfold Mul. rewrite EP, G0, G1. cbn [Nat.add Nat.eqb].
    set (out2 := if Nat.ltb (ctDegree out1) 2 then Resize (rN rQ) 2 out1 else out1).
    assert (S2 : shaped 2 level out2).
    { unfold out2. replace (ctDegree out1) with d by (unfold ctDegree; rewrite (proj1 S1); lia). destruct (Nat.ltb_spec d 2).
      - apply resize_up. replace d with 1%nat in S1 by lia. exact S1.
      - replace d with 2%nat in S1 by lia. exact S1. }
    clearbody out2.
    destruct (tensor_repr level0 level1 level B0 B1 square c0 c1 C0 C1 s (comp out2 0) (comp out2 1) (comp out2 2) HC0 HC1 F0 F1) as (t0 & t1 & t2 & ET & X0 & X1 & X2 & R0 & R1 & R2);
      [unfold level; lia|unfold level; lia|lia|lia|exact HE|].
    rewrite ET. eexists. split; [reflexivity|].
    destruct S2 as (Y1 & Y2 & Y3). rewrite !Y3 in * by lia. rewrite Nat.max_id in *.
    replace (skipn 3 (ctV out2)) with (@nil rows) by (symmetry; apply skipn_all2; lia). rewrite app_nil_r.
    set (c := mkCt [t0; t1; t2] _ _). set (C := fun j => nth j [pmul n (C0 0%nat) (C1 0%nat); padd (pmul n (C0 0%nat) (C1 1%nat)) (pmul n (C0 1%nat) (C1 0%nat)); pmul n (C0 1%nat) (C1 1%nat)] pzero).
    assert (HR : ct_repr rQ L level canon c C).
    { split; [destruct HC0; unfold level; lia|]. split; [cbn [c ctV length]; lia|]. split; [apply HS|].
      intros [|[|[|j]]] Hj; unfold c, comp, C; cbn [ctV nth]; [split; assumption|split; assumption|split; assumption|cbn [c ctV length] in Hj; lia]. }
    split; [apply (ct_repr_ok rQ L EL) in HR; exact HR|]. split; [reflexivity|]. split; [reflexivity|].
    apply (image2_decrypts rQ BQ L EL level0 level1 level B0 B1 canon c0 C0 c1 C1 c C sk sec M0 M1 _ Hs HC0 F0 HC1 F1 HR (fits_canon rQ BQ L EL)); [unfold level; lia|unfold level; lia| |exact D0|exact D1].
    intros i Hi Z0 Z1. change (length (ctV c)) with 3%nat. rewrite <- E0 in Z0. rewrite <- E1 in Z1. unfold C, n. rewrite dval_tensor. apply pmul_peq; assumption.
  Qed.

  (** Plaintext times ciphertext. *)
  Lemma plain_correct levelp levelc level Bp Bc p c (out : Ct) sc s sk sec Mp Mc : secret rQ L sk sec ->
    ct_ok rQ levelp Bp p -> ct_ok rQ levelc Bc c -> fits rQ Bp -> fits rQ Bc -> decrypts rQ L sk p Mp -> decrypts rQ L sk c Mc ->
    ctDegree p = 0%nat -> ctDegree c = 1%nat -> shaped 1 level out -> (level <= levelp)%nat -> (level <= levelc)%nat ->
    let c' := mkCt (plain_times rQ level p c s (ctV out)) sc (ctNTT out) in
    ct_ok rQ level canon c' /\ ctDegree c' = 1%nat /\ decrypts rQ L sk c' (pmul n Mp Mc).
  Proof.
    intros Hs K0 K1 F0 F1 D0 D1 G0 G1 HS L0 L1 c'.
    destruct (ct_ok_repr rQ BQ L EL levelp Bp p K0) as [P HP]. destruct (ct_ok_repr rQ BQ L EL levelc Bc c K1) as [C HC].
    assert (N0 := proj1 (proj2 HP)). assert (N1 := proj1 (proj2 HC)).
    pose proof (ctDegree_S p (proj1 N0)) as E0. pose proof (ctDegree_S c (proj1 N1)) as E1. rewrite G0 in E0. rewrite G1 in E1.
    assert (Rp : rns_ntt rQ L level Bp (comp p 0) (P 0%nat)) by (destruct HP as (_ & _ & _ & HP); apply (ntt_level rQ L EL levelp); [exact L0|apply HP; lia]).
    assert (Rc : forall j, (j < 2)%nat -> rns_ntt rQ L level Bc (comp c j) (C j)) by (intros j Hj; destruct HC as (_ & _ & _ & HC); apply (ntt_level rQ L EL levelc); [exact L1|apply HC; lia]).
    pose proof (mform_ct level Bp (comp p 0) (sMul0 s) (P 0%nat) F0 Rp) as M0.
    destruct HS as (S1 & S2 & S3). destruct (two_lengths (ctV out) S1) as (o0 & o1 & EO).
    assert (LO0 : length o0 = S level) by (pose proof (S3 0%nat ltac:(lia)) as H; unfold comp in H; rewrite EO in H; exact H).
    assert (LO1 : length o1 = S level) by (pose proof (S3 1%nat ltac:(lia)) as H; unfold comp in H; rewrite EO in H; exact H).
    destruct out as [vs osc ot]. cbn [ctV ctNTT] in *. subst vs.
    assert (EL2 : length (ctV c') = 2%nat) by reflexivity.
    assert (EC : forall j, (j < 2)%nat -> comp c' j = MulCoeffsMontgomeryLvl rQ level (MFormLvl rQ level (comp p 0) (sMul0 s)) (comp c j) (nth j [o0; o1] [])).
    { intros [|[|j]] Hj; [reflexivity|reflexivity|lia]. }
    assert (ET : ctNTT c' = true) by exact S2. clearbody c'.
    assert (HR : ct_repr rQ L level canon c' (fun j => pmul n (P 0%nat) (C j))).
    { split; [destruct HP; lia|]. rewrite EL2. split; [lia|]. split; [exact ET|].
      intros j Hj. rewrite EC by exact Hj. split; [unfold MulCoeffsMontgomeryLvl, op2; rewrite lvl_length; destruct j as [|[|j]]; cbn [nth]; lia|].
      apply (mul_ct level Bc); [exact F1|exact M0|apply Rc; exact Hj]. }
    split; [apply (ct_repr_ok rQ L EL) in HR; exact HR|]. split; [unfold ctDegree; rewrite EL2; reflexivity|].
    apply (image2_decrypts rQ BQ L EL levelp levelc level Bp Bc canon p P c C c' _ sk sec Mp Mc _ Hs HP F0 HC F1 HR (fits_canon rQ BQ L EL)); [exact L0|exact L1| |exact D0|exact D1].
    intros i Hi Z0 Z1. rewrite EL2. rewrite <- E0 in Z0. rewrite <- E1 in Z1. unfold n. rewrite dval_mul. apply pmul_peq; [|exact Z1].
    rewrite <- Z0. symmetry. apply dval_1.
  Qed.
End Mul.
