(** Products with relinearization. *)
From Verif Require Import Word ModRed Arith Fermat ModRedProofs PolySpec PolyProofs Ring RingProofs NTT NTTProofs RingOps RNSSpec RowProofs OpsProofs OpsProps NTTProps Repr BasisExt CRT BasisProofs BasisProps Automorphism AutoProps Scaling Gadget GadgetSpec GadgetProofs Frlwe FrlweSetup FrlweProps FrlweSwitch RlweSpec Rlwe RlweBase RlweKeys RlweSwitch RlweEnc RlweTop Float64 Ckks CkksSpec CkksBase CkksConst CkksOps CkksAdd CkksMul.

Lemma ppow_2 r q s : peq (rN r) q (ppow (rN r) s 2) (pmul (rN r) s s).
Proof. cbn [ppow]. apply pmul_peq; [apply pmul_1_l|reflexivity]. Qed.

Section Alg.
  Variables (r : Ring) (q : Z).
  Let n := rN r.
  Add Ring polyring : (poly_ring n q) (setoid (peq_equiv n q) (poly_ring_ext n q)).
  Lemma relin_alg s C D P1 P2 E :
    peq n q (padd P1 (pmul n P2 s)) (padd (pmul n (pmul n (C 1%nat) (D 1%nat)) (ppow n s 2)) E) ->
    peq n q (padd (padd (pmul n (C 0%nat) (D 0%nat)) P1) (pmul n (padd (padd (pmul n (C 0%nat) (D 1%nat)) (pmul n (C 1%nat) (D 0%nat))) P2) s))
            (padd (pmul n (dval r s C 2) (dval r s D 2)) E).
  Proof.
    intros H. unfold n in H |- *. rewrite ppow_2 in H. rewrite !dval_2. fold n in H. fold n.
    transitivity (padd (padd (pmul n (C 0%nat) (D 0%nat)) (pmul n (padd (pmul n (C 0%nat) (D 1%nat)) (pmul n (C 1%nat) (D 0%nat))) s)) (padd P1 (pmul n P2 s))); [ring|].
    rewrite H. ring.
  Qed.
  Lemma relin_alg3 s C P1 P2 E :
    peq n q (padd P1 (pmul n P2 s)) (padd (pmul n (C 2%nat) (ppow n s 2)) E) ->
    peq n q (padd (padd (C 0%nat) P1) (pmul n (padd (C 1%nat) P2) s)) (padd (dval r s C 3) E).
  Proof.
    intros H. unfold n in H |- *. rewrite ppow_2 in H. rewrite dval_3. fold n in H. fold n.
    transitivity (padd (padd (C 0%nat) (pmul n (C 1%nat) s)) (padd P1 (pmul n P2 s))); [ring|]. rewrite H. ring.
  Qed.
  Lemma switch_alg s s' C P1 P2 E :
    peq n q (padd P1 (pmul n P2 s)) (padd (pmul n (C 1%nat) s') E) ->
    peq n q (padd (padd (C 0%nat) P1) (pmul n P2 s)) (padd (dval r s' C 2) E).
  Proof.
    intros H. unfold n in H |- *. rewrite dval_2. fold n in H. fold n.
    transitivity (padd (C 0%nat) (padd P1 (pmul n P2 s))); [ring|]. rewrite H. ring.
  Qed.
End Alg.

Section Relin.
  Variables (rQ rP : Ring) (L : nat).
  Hypothesis (HP : ring_pair rQ rP) (EL : rN rQ = (2 ^ L)%nat).
  Let n := rN rQ.
  Let BQ : built_ring 9 rQ := k_Q rQ rP HP.
  Let B2 : built_ring 2 rQ := one_2 rQ BQ.
  Let q i := mq (rmod rQ i).

  Lemma add_lazy level p1 p2 out X Y : rns_ntt rQ L level canon p1 X -> rns_ntt rQ L level lazy p2 Y ->
    rns_ntt rQ L level lazy (AddLvl rQ level p1 p2 out) (padd X Y).
  Proof. intros H. assert (Hl := proj1 H). revert H. apply (n_add rQ L B2 EL level canon lazy). intros i Hi. destruct (one_mod rQ BQ i ltac:(lia)). unfold canon, lazy. lia. Qed.
  Lemma lazy_repr level p out X : rns_repr rQ level canon p X -> rns_ntt rQ L level lazy (NTTLazyLvl rQ level p out) X.
  Proof. intros H. assert (Hl := proj1 H). apply (lazy_ct rQ BQ L EL); assumption. Qed.

  Lemma mul_relin levelK levelP level0 level1 lo B0 B1 rlk square c0 c1 out s sk sec M0 M1 DQ Be Bs :
    secret rQ L sk sec -> key_levels rQ rP levelK levelP ->
    ct_ok rQ level0 B0 c0 -> ct_ok rQ level1 B1 c1 -> fits rQ B0 -> fits rQ B1 -> decrypts rQ L sk c0 M0 -> decrypts rQ L sk c1 M1 ->
    ctDegree c0 = 1%nat -> ctDegree c1 = 1%nat -> (square = true -> c0 = c1) -> shaped 1 lo out ->
    let level := Nat.min (Nat.min level0 level1) lo in (level <= levelK)%nat ->
    swkey_ok rQ rP L levelK levelP rlk sec (ppow n sec 2) Be -> blocks_below rQ level levelP DQ -> 0 <= Be -> 0 <= Bs -> pbound n Bs sec ->
    exists c E, MulRelin rQ rP levelP rlk square c0 c1 out s = Some c /\ ct_ok rQ level lazy c /\ ctDegree c = 1%nat /\
      ctScale c = f64_mul (ctScale c0) (ctScale c1) /\ switch_noise rQ rP level levelP DQ Be Bs E /\
      decrypts rQ L sk c (padd (pmul n M0 M1) E).
  Proof.
    intros Hs HK K0 K1 F0 F1 D0 D1 G0 G1 Hsq HS level HlK Hkey HDQ HBe HBs Hb.
    destruct (both_repr rQ BQ L EL level0 level1 B0 B1 square c0 c1 K0 K1 Hsq) as (C0 & C1 & HC0 & HC1 & HE).
    assert (N0 := proj1 (proj2 HC0)). assert (N1 := proj1 (proj2 HC1)).
    pose proof (ctDegree_S c0 (proj1 N0)) as E0. pose proof (ctDegree_S c1 (proj1 N1)) as E1. rewrite G0 in E0. rewrite G1 in E1.
    destruct (prelude_ok rQ L EL level0 level1 lo 1 B0 B1 c0 c1 C0 C1 out HC0 HC1) as (out1 & EP & S1); try lia; [exact HS|]. fold level in EP, S1.
    unfold MulRelin. rewrite EP, G0, G1. cbn [Nat.add Nat.eqb].
    destruct (tensor_repr rQ BQ L EL level0 level1 level B0 B1 square c0 c1 C0 C1 s (comp out1 0) (comp out1 1) (sMul2 s) HC0 HC1 F0 F1) as (t0 & t1 & t2 & ET & X0 & X1 & X2 & R0 & R1 & R2);
      [unfold level; lia|unfold level; lia|lia|lia|exact HE|].
    rewrite ET. fold n in R0, R1, R2.
    assert (R2' : rns_repr rQ level canon (InvNTTLvl rQ level t2 t2) (pmul n (C0 1%nat) (C1 1%nat))) by (apply (e_inttc rQ BQ L EL); exact R2).
    destruct (switch_simple rQ rP L HP EL levelK level levelP (InvNTTLvl rQ level t2 t2) false (pmul n (C0 1%nat) (C1 1%nat)) rlk (sInv s) (s0 s) (s1P s) (s2P s) (s1Q s) (s2Q s) sec (ppow n sec 2) DQ Be Bs HK HlK R2' Hkey HDQ HBe HBs Hb)
      as (p1 & p2 & P1 & P2 & E & Y1 & Y2 & Y3 & Y4 & Y5 & Y6 & Y7).
    unfold switch_into_pools. rewrite Y1. cbn [rns_dom] in Y2, Y3. eexists. exists E. split; [reflexivity|].
    destruct S1 as (Z1 & Z2 & Z3). rewrite !Z3 in * by lia. rewrite Nat.max_id in *.
    replace (skipn 2 (ctV out1)) with (@nil rows) by (symmetry; apply skipn_all2; lia). rewrite app_nil_r.
    set (c := mkCt _ _ _). set (C := fun j => nth j [padd (pmul n (C0 0%nat) (C1 0%nat)) P1; padd (padd (pmul n (C0 0%nat) (C1 1%nat)) (pmul n (C0 1%nat) (C1 0%nat))) P2] pzero).
    assert (HR : ct_repr rQ L level lazy c C).
    { split; [destruct HC0; unfold level; lia|]. split; [cbn [c ctV length]; lia|]. split; [apply HS|].
      intros [|[|j]] Hj; unfold c, comp, C; cbn [ctV nth]; [| |cbn [c ctV length] in Hj; lia].
      - split; [unfold AddLvl, op2; rewrite lvl_length; lia|]. apply add_lazy; [exact R0|]. apply lazy_repr. exact Y2.
      - split; [unfold AddLvl, op2; rewrite lvl_length; lia|]. apply add_lazy; [exact R1|]. apply lazy_repr. exact Y3. }
    split; [apply (ct_repr_ok rQ L EL) in HR; exact HR|]. split; [reflexivity|]. split; [reflexivity|]. split; [exact Y7|].
    apply (image2_decrypts rQ BQ L EL level0 level1 level B0 B1 lazy c0 C0 c1 C1 c C sk sec M0 M1 _ Hs HC0 F0 HC1 F1 HR (fits_lazy rQ BQ L EL)); [unfold level; lia|unfold level; lia| |exact D0|exact D1].
    intros i Hi V0 V1. change (length (ctV c)) with 2%nat. rewrite <- E0 in V0. rewrite <- E1 in V1. rewrite dval_2. unfold C. cbn [nth]. etransitivity; [exact (relin_alg rQ _ sec C0 C1 P1 P2 E (Y6 i Hi))|].
    apply padd_peq; [apply pmul_peq; assumption|reflexivity].
  Qed.

  (** A plaintext and a ciphertext, in either order, with or without relinearization. *)
  Lemma mul_plain_any relin levelP rlk level0 level1 lo B0 B1 square c0 c1 out s sk sec M0 M1 :
    secret rQ L sk sec -> ct_ok rQ level0 B0 c0 -> ct_ok rQ level1 B1 c1 -> fits rQ B0 -> fits rQ B1 -> decrypts rQ L sk c0 M0 -> decrypts rQ L sk c1 M1 ->
    (ctDegree c0 = 0 /\ ctDegree c1 = 1 \/ ctDegree c0 = 1 /\ ctDegree c1 = 0)%nat -> shaped 1 lo out ->
    let level := Nat.min (Nat.min level0 level1) lo in
    exists c, (if relin : bool then MulRelin rQ rP levelP rlk square c0 c1 out s else Mul rQ square c0 c1 out s) = Some c /\ ct_ok rQ level canon c /\ ctDegree c = 1%nat /\
      ctScale c = f64_mul (ctScale c0) (ctScale c1) /\ decrypts rQ L sk c (pmul n M0 M1).
  Proof.
    intros Hs K0 K1 F0 F1 D0 D1 HG HS level.
    destruct (ct_ok_repr rQ BQ L EL level0 B0 c0 K0) as [C0 HC0]. destruct (ct_ok_repr rQ BQ L EL level1 B1 c1 K1) as [C1 HC1].
    destruct (prelude_ok rQ L EL level0 level1 lo 1 B0 B1 c0 c1 C0 C1 out HC0 HC1) as (out1 & EP & S1); try lia; [exact HS|]. fold level in EP, S1.
    set (p := if Nat.eqb (ctDegree c0) 1 then c1 else c0). set (c := if Nat.eqb (ctDegree c0) 1 then c0 else c1).
    exists (mkCt (plain_times rQ level p c s (ctV out1)) (f64_mul (ctScale c0) (ctScale c1)) (ctNTT out)).
    assert (ED : Nat.eqb (ctDegree c0 + ctDegree c1) 2 = false) by (apply Nat.eqb_neq; lia).
    assert (EN : ctNTT out = ctNTT out1) by (rewrite (proj1 (proj2 HS)), (proj1 (proj2 S1)); reflexivity).
    split.
    { unfold MulRelin, Mul. rewrite EP, ED. unfold p, c. destruct relin, (Nat.eqb (ctDegree c0) 1); reflexivity. }
    rewrite EN. cbn [ctScale]. cut (let c' := mkCt (plain_times rQ level p c s (ctV out1)) (f64_mul (ctScale c0) (ctScale c1)) (ctNTT out1) in
      ct_ok rQ level canon c' /\ ctDegree c' = 1%nat /\ decrypts rQ L sk c' (pmul n M0 M1)).
    { intros (X1 & X2 & X3). split; [exact X1|]. split; [exact X2|]. split; [reflexivity|exact X3]. }
    unfold p, c. destruct HG as [[G0 G1]|[G0 G1]]; rewrite G0; cbn [Nat.eqb].
    - apply (plain_correct rQ BQ L EL level0 level1 level B0 B1 c0 c1 out1 _ s sk sec M0 M1); try assumption; unfold level; lia.
    - destruct (plain_correct rQ BQ L EL level1 level0 level B1 B0 c1 c0 out1 (f64_mul (ctScale c0) (ctScale c1)) s sk sec M1 M0) as (X1 & X2 & X3); try assumption; try (unfold level; lia).
      split; [exact X1|]. split; [exact X2|]. destruct (ct_ok_repr rQ BQ L EL _ _ _ X1) as [C HC].
      apply (ct_repr_peq rQ BQ L EL level canon _ C sk sec (pmul n M1 M0) _ HC (fits_canon rQ BQ L EL) Hs X3). intros i Hi. apply pmul_comm.
  Qed.

  Lemma dom_true level p X : rns_ntt rQ L level canon p X -> rns_dom rQ L level true p X.
  Proof. trivial. Qed.

  Lemma add_canon level B p1 p2 out X Y : fits rQ B -> rns_ntt rQ L level B p1 X -> rns_ntt rQ L level canon p2 Y ->
    rns_ntt rQ L level B (AddLvl rQ level p1 p2 out) (padd X Y).
  Proof. intros HB H. assert (Hl := proj1 H). revert H. apply (n_add rQ L B2 EL level B canon). intros i Hi. destruct (HB i ltac:(lia)). unfold canon. lia. Qed.

  (** Relinearize: component 2 must be reduced. *)
  Lemma relinearize levelK levelP level0 lo d B rlk c out s sk sec M DQ Be Bs :
    secret rQ L sk sec -> key_levels rQ rP levelK levelP ->
    ct_ok rQ level0 B c -> fits rQ B -> words rQ level0 canon (comp c 2) -> decrypts rQ L sk c M ->
    ctDegree c = 2%nat -> (1 <= d)%nat -> shaped d lo out ->
    let level := Nat.min level0 lo in (level <= levelK)%nat ->
    swkey_ok rQ rP L levelK levelP rlk sec (ppow n sec 2) Be -> blocks_below rQ level levelP DQ -> 0 <= Be -> 0 <= Bs -> pbound n Bs sec ->
    exists c' E, Relinearize rQ rP levelP rlk c out s = Some c' /\ ct_ok rQ level B c' /\ ctDegree c' = 1%nat /\
      ctScale c' = ctScale c /\ switch_noise rQ rP level levelP DQ Be Bs E /\ decrypts rQ L sk c' (padd M E).
  Proof.
    intros Hs HK K0 F0 Hw D0 G0 Hd HS level HlK Hkey HDQ HBe HBs Hb.
    destruct (ct_ok_repr rQ BQ L EL level0 B c K0) as [C HC]. assert (N0 := proj1 (proj2 HC)).
    pose proof (ctDegree_S c (proj1 N0)) as E0. rewrite G0 in E0. pose proof (ct_repr_level rQ L EL _ _ _ _ HC) as Ec. pose proof (shaped_level _ _ _ HS) as Eo.
    assert (Hl0 : (level0 < length (rmods rQ))%nat) by apply HC.
    unfold Relinearize. rewrite G0, Ec. cbn [Nat.eqb negb].
    assert (S1 : shaped d level (drop_to level0 out)).
    { destruct (Nat.leb_spec level0 lo); [replace level with level0 by (unfold level; lia); apply (shaped_drop_to d lo); assumption|].
      unfold drop_to. rewrite Eo, (proj2 (Nat.ltb_ge level0 lo)) by lia. replace level with lo by (unfold level; lia). exact HS. }
    set (out1 := drop_to level0 out) in *. clearbody out1. pose proof (shaped_level _ _ _ S1) as Eo1. rewrite Eo1. replace (Nat.min level0 level) with level by (unfold level; lia).
    assert (Rc : forall j, (j < 3)%nat -> rns_ntt rQ L level B (comp c j) (C j)) by (intros j Hj; destruct HC as (_ & _ & _ & HC); apply (ntt_level rQ L EL level0); [unfold level; lia|apply HC; lia]).
    assert (R2 : rns_ntt rQ L level canon (comp c 2) (C 2%nat)).
    { destruct (Rc 2%nat ltac:(lia)) as (A1 & A2 & A3). split; [exact A1|]. split; [exact A2|]. intros i Hi. destruct (A3 i Hi) as [A4 A5]. split; [exact A4|].
      intros k Hk. split; [|apply A5; exact Hk]. destruct Hw as [_ Hw]. apply Hw; [unfold level in Hi; lia|rewrite EL; exact Hk]. }
    rewrite (proj1 (proj2 (proj2 HC))).
    destruct (switch_simple rQ rP L HP EL levelK level levelP (comp c 2) true (C 2%nat) rlk (sInv s) (s0 s) (s1P s) (s2P s) (s1Q s) (s2Q s) sec (ppow n sec 2) DQ Be Bs HK HlK R2 Hkey HDQ HBe HBs Hb)
      as (p1 & p2 & P1 & P2 & E & Y1 & Y2 & Y3 & Y4 & Y5 & Y6 & Y7).
    unfold switch_into_pools. rewrite Y1. cbn [rns_dom] in Y2, Y3. eexists. exists E. split; [reflexivity|].
    destruct S1 as (Z1 & Z2 & Z3).
    set (a0 := AddLvl rQ level (comp c 0) p1 (comp out1 0)). set (a1 := AddLvl rQ level (comp c 1) p2 (comp out1 1)).
    assert (ER : Resize (rN rQ) 1 (mkCt ([a0; a1] ++ skipn 2 (ctV out1)) (ctScale c) (ctNTT out1)) = mkCt [a0; a1] (ctScale c) (ctNTT out1)).
    { unfold Resize, ctDegree. cbn [ctV ctScale ctNTT app length]. f_equal. destruct (Nat.ltb_spec 1 (S (S (length (skipn 2 (ctV out1)))) - 1)).
      - reflexivity.
      - assert (EZ : length (skipn 2 (ctV out1)) = 0%nat) by lia. rewrite EZ. apply length_zero_iff_nil in EZ. rewrite EZ. reflexivity. }
    rewrite ER. set (c' := mkCt _ _ _). set (C' := fun j => nth j [padd (C 0%nat) P1; padd (C 1%nat) P2] pzero).
    assert (HR : ct_repr rQ L level B c' C').
    { split; [unfold level; lia|]. split; [cbn [c' ctV length]; lia|]. split; [exact Z2|].
      intros [|[|j]] Hj; unfold c', comp, C', a0, a1; cbn [ctV nth]; [| |cbn [c' ctV length] in Hj; lia].
      - split; [unfold AddLvl, op2; rewrite lvl_length, Z3 by lia; lia|]. apply add_canon; [exact F0|apply Rc; lia|exact Y2].
      - split; [unfold AddLvl, op2; rewrite lvl_length, Z3 by lia; lia|]. apply add_canon; [exact F0|apply Rc; lia|exact Y3]. }
    split; [apply (ct_repr_ok rQ L EL) in HR; exact HR|]. split; [reflexivity|]. split; [reflexivity|]. split; [exact Y7|].
    apply (image_decrypts rQ BQ L EL level0 level B B c C c' C' sk sec M _ Hs HC F0 HR F0); [unfold level; lia| |exact D0].
    intros i Hi V. change (length (ctV c')) with 2%nat. rewrite <- E0 in V. rewrite dval_2. unfold C'. cbn [nth]. etransitivity; [exact (relin_alg3 rQ _ sec C P1 P2 E (Y6 i Hi))|].
    apply padd_peq; [exact V|reflexivity].
  Qed.

  (** SwitchKeys: component 1 must be reduced. *)
  Lemma switch_keys levelK levelP level0 level B key c out s sk sk' sec sec' M DQ Be Bs :
    secret rQ L sk sec -> secret rQ L sk' sec' -> key_levels rQ rP levelK levelP ->
    ct_ok rQ level0 B c -> fits rQ B -> words rQ level0 canon (comp c 1) -> decrypts rQ L sk' c M ->
    ctDegree c = 1%nat -> shaped 1 level out -> (level <= level0)%nat -> (level <= levelK)%nat ->
    swkey_ok rQ rP L levelK levelP key sec sec' Be -> blocks_below rQ level levelP DQ -> 0 <= Be -> 0 <= Bs -> pbound n Bs sec ->
    exists c' E, SwitchKeys rQ rP levelP key c out s = Some c' /\ ct_ok rQ level B c' /\ ctDegree c' = 1%nat /\
      ctScale c' = ctScale c /\ switch_noise rQ rP level levelP DQ Be Bs E /\ decrypts rQ L sk c' (padd M E).
  Proof.
    intros Hs Hs' HK K0 F0 Hw D0 G0 HS Hl HlK Hkey HDQ HBe HBs Hb.
    destruct (ct_ok_repr rQ BQ L EL level0 B c K0) as [C HC]. assert (N0 := proj1 (proj2 HC)).
    pose proof (ctDegree_S c (proj1 N0)) as E0. rewrite G0 in E0. pose proof (ct_repr_level rQ L EL _ _ _ _ HC) as Ec. pose proof (shaped_level _ _ _ HS) as Eo.
    assert (Hl0 : (level0 < length (rmods rQ))%nat) by apply HC.
    unfold SwitchKeys. rewrite G0, Ec, Eo, Nat.min_r by exact Hl. replace (ctDegree out) with 1%nat by (unfold ctDegree; rewrite (proj1 HS); reflexivity). cbn [Nat.eqb negb orb].
    assert (Rc : forall j, (j < 2)%nat -> rns_ntt rQ L level B (comp c j) (C j)) by (intros j Hj; destruct HC as (_ & _ & _ & HC); apply (ntt_level rQ L EL level0); [exact Hl|apply HC; lia]).
    assert (R2 : rns_ntt rQ L level canon (comp c 1) (C 1%nat)).
    { destruct (Rc 1%nat ltac:(lia)) as (A1 & A2 & A3). split; [exact A1|]. split; [exact A2|]. intros i Hi. destruct (A3 i Hi) as [A4 A5]. split; [exact A4|].
      intros k Hk. split; [|apply A5; exact Hk]. destruct Hw as [_ Hw]. apply Hw; [lia|rewrite EL; exact Hk]. }
    rewrite (proj1 (proj2 (proj2 HC))).
    destruct (switch_simple rQ rP L HP EL levelK level levelP (comp c 1) true (C 1%nat) key (sInv s) (s0 s) (s1P s) (s2P s) (s1Q s) (s2Q s) sec sec' DQ Be Bs HK HlK R2 Hkey HDQ HBe HBs Hb)
      as (p1 & p2 & P1 & P2 & E & Y1 & Y2 & Y3 & Y4 & Y5 & Y6 & Y7).
    unfold switch_into_pools. rewrite Y1. cbn [rns_dom] in Y2, Y3. eexists. exists E. split; [reflexivity|].
    destruct HS as (Z1 & Z2 & Z3).
    set (c' := mkCt _ _ _). set (C' := fun j => nth j [padd (C 0%nat) P1; P2] pzero).
    assert (HR : ct_repr rQ L level B c' C').
    { split; [lia|]. split; [cbn [c' ctV length]; lia|]. split; [exact Z2|].
      intros [|[|j]] Hj; unfold c', comp, C'; cbn [ctV nth]; [| |cbn [c' ctV length] in Hj; lia].
      - split; [unfold AddLvl, op2; rewrite lvl_length; fold (comp out 0); rewrite Z3 by lia; lia|]. apply add_canon; [exact F0|apply (Rc 0%nat); lia|exact Y2].
      - split; [unfold CopyValuesLvl; rewrite lvl_length; fold (comp out 1); rewrite Z3 by lia; lia|]. apply (ntt_copy rQ L EL).
        revert Y3. apply (ntt_weaken rQ L EL). intros i Hi. apply (F0 i). lia. }
    split; [apply (ct_repr_ok rQ L EL) in HR; exact HR|]. split; [reflexivity|]. split; [reflexivity|]. split; [exact Y7|].
    apply (decrypts_iff rQ BQ L EL level B c' C' sk sec _ HR F0 Hs). intros i Hi.
    change (length (ctV c')) with 2%nat. rewrite dval_2. unfold C'. cbn [nth]. etransitivity; [exact (switch_alg rQ _ sec sec' C P1 P2 E (Y6 i Hi))|].
    apply padd_peq; [|reflexivity]. rewrite E0. apply (proj1 (decrypts_iff rQ BQ L EL level0 B c C sk' sec' M HC F0 Hs') D0). lia.
  Qed.
End Relin.
