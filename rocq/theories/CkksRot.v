(** Rotations and conjugation. *)
From Verif Require Import Word ModRed Arith Fermat ModRedProofs PolySpec PolyProofs Ring RingProofs NTT NTTProofs RingOps RNSSpec RowProofs OpsProofs OpsProps NTTProps Repr BasisExt CRT BasisProofs BasisProps Automorphism AutoProps Scaling Gadget GadgetSpec GadgetProofs Frlwe FrlweSetup FrlweProps FrlweSwitch RlweSpec Rlwe RlweBase RlweKeys RlweSwitch RlweEnc RlweTop Float64 Ckks CkksSpec CkksBase CkksConst CkksOps CkksAdd CkksMul CkksRelin.

Section Norm.
  Variables (L g h : nat).
  Hypothesis (Hh : Nat.odd h = true) (Hgh : ((h * g) mod 2 ^ L = 1 mod 2 ^ L)%nat).
  Lemma pauto_coeff X k : (k < 2 ^ L)%nat -> exists i, (i < 2 ^ L)%nat /\ Z.abs (pauto (2 ^ L) h X k) = Z.abs (X i).
  Proof.
    intros Hk. assert (P : (2 ^ L <> 0)%nat) by (apply Nat.pow_nonzero; lia). exists ((g * k) mod 2 ^ L)%nat. split; [apply Nat.mod_upper_bound; exact P|].
    assert (E : ((h * ((g * k) mod 2 ^ L)) mod 2 ^ L = k)%nat).
    { rewrite Nat.mul_mod_idemp_r, Nat.mul_assoc, <- Nat.mul_mod_idemp_l, Hgh, Nat.mul_mod_idemp_l, Nat.mul_1_l by exact P. apply Nat.mod_small. exact Hk. }
    rewrite <- E at 1. rewrite pauto_at; [|exact Hh|apply Nat.mod_upper_bound; exact P]. destruct (Nat.even _); lia.
  Qed.
  Lemma pauto_pbound B X : pbound (2 ^ L) B X -> pbound (2 ^ L) B (pauto (2 ^ L) h X).
  Proof. intros H k Hk. destruct (pauto_coeff X k Hk) as (i & Hi & E). rewrite E. apply H. exact Hi. Qed.
End Norm.

Lemma odd_factors g h m : (g * h) mod (2 * m) = 1 -> 0 < m -> Z.odd g = true /\ Z.odd h = true.
Proof.
  intros E Hm. assert (O : Z.odd (g * h) = true).
  { rewrite (Z.div_mod (g * h) (2 * m)) by lia. rewrite E. rewrite <- Z.mul_assoc, Z.odd_add, Z.odd_mul. reflexivity. }
  rewrite Z.odd_mul in O. apply andb_prop in O. exact O.
Qed.

Section Rot.
  Variables (rQ rP : Ring) (L : nat).
  Hypothesis (HP : ring_pair rQ rP) (EL : rN rQ = (2 ^ L)%nat).
  Let n := rN rQ.
  Let BQ : built_ring 9 rQ := k_Q rQ rP HP.
  Let B2 : built_ring 2 rQ := one_2 rQ BQ.
  Let q i := mq (rmod rQ i).

  Lemma noise_auto g h levelQ levelP DQ Be Bs E : 0 <= g -> 0 <= h -> Z.odd g = true -> (g * h) mod (2 * Z.of_nat n) = 1 ->
    switch_noise rQ rP levelQ levelP DQ Be Bs E -> switch_noise rQ rP levelQ levelP DQ Be Bs (pauto n (Z.to_nat g) E).
  Proof.
    intros Hg Hh Ho Hgh HE k Hk. fold n in Hk. unfold n in *. rewrite EL in *.
    destruct (pauto_coeff L (Z.to_nat h) (Z.to_nat g)) with (X := E) (k := k) as (i & Hi & Eq).
    - apply Nodd_Z; assumption.
    - apply Nat2Z.inj. rewrite !Nat2Z.inj_mod, Nat2Z.inj_mul, !Z2Nat.id by assumption.
      assert (P : 0 < Z.of_nat (2 ^ L)) by (pose proof (Nat.pow_nonzero 2 L); lia). set (N := Z.of_nat (2 ^ L)) in *. clearbody N.
      transitivity (((g * h) mod (2 * N)) mod N); [|rewrite Hgh; reflexivity]. apply Zmod_div_mod; [lia|lia|]. exists 2. ring.
    - exact Hk.
    - unfold switch_noise in HE. rewrite EL in HE. cbv zeta in HE. specialize (HE i Hi). rewrite Eq. exact HE.
  Qed.

  Lemma rotate_core levelK levelP level0 level B key g c out s sk sec M DQ Be Bs :
    secret rQ L sk sec -> key_levels rQ rP levelK levelP ->
    ct_ok rQ level0 B c -> fits rQ B -> words rQ level0 (fun q => 2 * q) (comp c 1) -> decrypts rQ L sk c M ->
    ctDegree c = 1%nat -> shaped 1 level out -> (level <= level0)%nat -> (level <= levelK)%nat -> 0 <= g ->
    rotation_key rQ rP L levelK levelP g key sec Be -> blocks_below rQ level levelP DQ -> 0 <= Be -> 0 <= Bs -> pbound n Bs sec ->
    exists c' E, permuteNTT rQ rP levelP key g false c out s = Some c' /\ ct_ok rQ level B c' /\ ctDegree c' = 1%nat /\
      ctScale c' = ctScale c /\ switch_noise rQ rP level levelP DQ Be Bs E /\ decrypts rQ L sk c' (padd (pauto n (Z.to_nat g) M) E).
  Proof.
    intros Hs HK K0 F0 Hw D0 G0 HS Hl HlK Hg (h & Hh & Ho & Hgh & Hkey) HDQ HBe HBs Hb. fold n in Hgh.
    assert (NP : 0 < Z.of_nat n) by (unfold n; rewrite EL; pose proof (Nat.pow_nonzero 2 L); lia).
    destruct (odd_factors g h _ Hgh NP) as [Og Oh].
    assert (OgN : Nat.odd (Z.to_nat g) = true) by (apply Nodd_Z; assumption).
    assert (Hb' : pbound n Bs (pauto n (Z.to_nat h) sec)).
    { unfold n. rewrite EL. apply (pauto_pbound L (Z.to_nat g)); [apply Nodd_Z; assumption| |unfold n in Hb; rewrite EL in Hb; exact Hb].
      apply Nat2Z.inj. rewrite !Nat2Z.inj_mod, Nat2Z.inj_mul, !Z2Nat.id by assumption. rewrite Z.mul_comm.
      unfold n in Hgh, NP. rewrite EL in Hgh, NP. set (N := Z.of_nat (2 ^ L)) in *. clearbody N.
      transitivity (((g * h) mod (2 * N)) mod N); [|rewrite Hgh; reflexivity]. apply Zmod_div_mod; [lia|lia|]. exists 2. ring. }
    destruct (ct_ok_repr rQ BQ L EL level0 B c K0) as [C HC]. assert (N0 := proj1 (proj2 HC)).
    pose proof (ctDegree_S c (proj1 N0)) as E0. rewrite G0 in E0. pose proof (ct_repr_level rQ L EL _ _ _ _ HC) as Ec. pose proof (shaped_level _ _ _ HS) as Eo.
    assert (Hl0 : (level0 < length (rmods rQ))%nat) by apply HC.
    unfold permuteNTT. rewrite Ec, Eo, Nat.min_r by exact Hl.
    assert (Rc : forall j, (j < 2)%nat -> rns_ntt rQ L level B (comp c j) (C j)) by (intros j Hj; destruct HC as (_ & _ & _ & HC); apply (ntt_level rQ L EL level0); [exact Hl|apply HC; lia]).
    assert (R2 : rns_ntt rQ L level (fun q => 2 * q) (comp c 1) (C 1%nat)).
    { destruct (Rc 1%nat ltac:(lia)) as (A1 & A2 & A3). split; [exact A1|]. split; [exact A2|]. intros i Hi. destruct (A3 i Hi) as [A4 A5]. split; [exact A4|].
      intros k Hk. split; [|apply A5; exact Hk]. destruct Hw as [_ Hw]. apply Hw; [lia|rewrite EL; exact Hk]. }
    assert (R1 : rns_repr rQ level canon (InvNTTLvl rQ level (comp c 1) (s1Q s)) (C 1%nat)).
    { apply (t_invntt rQ L B2 EL); [|exact R2]. intros i Hi. destruct (one_mod rQ BQ i ltac:(lia)). lia. }
    destruct (switch_simple rQ rP L HP EL levelK level levelP (InvNTTLvl rQ level (comp c 1) (s1Q s)) false (C 1%nat) key (sInv s) (s0 s) (s1P s) (s2P s) (comp out 0) (comp out 1) (pauto n (Z.to_nat h) sec) sec DQ Be Bs HK HlK R1 Hkey HDQ HBe HBs Hb')
      as (p1 & p2 & P1 & P2 & E & Y1 & Y2 & Y3 & Y4 & Y5 & Y6 & Y7).
    rewrite Y1. cbn [rns_dom] in Y2, Y3. eexists. exists (pauto n (Z.to_nat g) E). split; [reflexivity|].
    destruct HS as (Z1 & Z2 & Z3). rewrite !Z3 in * by lia. rewrite Nat.max_id in *.
    replace (skipn 2 (ctV out)) with (@nil rows) by (symmetry; apply skipn_all2; lia). rewrite app_nil_r.
    set (c' := mkCt _ _ _). set (C' := fun j => nth j [pauto n (Z.to_nat g) (padd P1 (C 0%nat)); pauto n (Z.to_nat g) P2] pzero).
    pose proof (e_nttc rQ BQ L EL level _ (InvNTTLvl rQ level (comp c 1) (s1Q s)) _ Y2) as T1.
    pose proof (e_nttc rQ BQ L EL level _ (s2Q s) _ Y3) as T2.
    assert (HR : ct_repr rQ L level B c' C').
    { split; [lia|]. split; [cbn [c' ctV length]; lia|]. split; [exact Z2|].
      intros [|[|j]] Hj; unfold c', comp, C'; cbn [ctV nth]; [| |cbn [c' ctV length] in Hj; lia].
      - split; [unfold PermuteNTTLvl, PermuteNTTWithIndexLvl; rewrite lvl_length; lia|]. apply (permute_ntt_index 9); [lia|exact BQ|exact EL|exact Hg|exact Og|].
        apply (n_add rQ L B2 EL level canon B); [|exact T1|apply (Rc 0%nat); lia]. intros i Hi. destruct (F0 i ltac:(lia)). unfold canon. lia.
      - split; [unfold PermuteNTTLvl, PermuteNTTWithIndexLvl; rewrite lvl_length; lia|]. apply (permute_ntt_index 9); [lia|exact BQ|exact EL|exact Hg|exact Og|].
        revert T2. apply (ntt_weaken rQ L EL). intros i Hi. apply (F0 i). lia. }
    split; [apply (ct_repr_ok rQ L EL) in HR; exact HR|]. split; [reflexivity|]. split; [reflexivity|].
    split; [apply (noise_auto g h); assumption|].
    apply (image_decrypts rQ BQ L EL level0 level B B c C c' C' sk sec M _ Hs HC F0 HR F0); [exact Hl| |exact D0].
    intros i Hi V. change (length (ctV c')) with 2%nat. rewrite <- E0 in V. rewrite dval_2 in V |- *. unfold C'. cbn [nth]. specialize (Y6 i Hi). fold n in V |- *.
    clear - Y6 V OgN NP Hgh Hg Hh EL.
    assert (NZ : (0 < n)%nat) by lia.
    assert (SB : peq n (mq (rmod rQ i)) (pauto n (Z.to_nat g) (pauto n (Z.to_nat h) sec)) sec).
    { rewrite pauto_comp by assumption. rewrite <- pauto_mod by assumption.
      replace ((Z.to_nat g * Z.to_nat h) mod (2 * n))%nat with 1%nat; [apply pauto_id; exact NZ|].
      apply Nat2Z.inj. rewrite Nat2Z.inj_mod, !Nat2Z.inj_mul, !Z2Nat.id by assumption. symmetry. exact Hgh. }
    transitivity (pauto n (Z.to_nat g) (padd (padd P1 (C 0%nat)) (pmul n P2 (pauto n (Z.to_nat h) sec)))).
    { rewrite (pauto_add n _ _ (padd P1 (C 0%nat))), pauto_mul by assumption. apply padd_peq; [reflexivity|]. apply pmul_peq; [reflexivity|symmetry; exact SB]. }
    rewrite <- pauto_add. apply pauto_peq. rewrite <- V.
    transitivity (padd (C 0%nat) (padd P1 (pmul n P2 (pauto n (Z.to_nat h) sec)))); [intros k Hk; apply eqm_eq; unfold padd; ring|].
    transitivity (padd (C 0%nat) (padd (pmul n (C 1%nat) sec) E)); [apply padd_peq; [reflexivity|exact Y6]|]. intros k Hk. apply eqm_eq. unfold padd. ring.
  Qed.

  Lemma gal_ok k : 0 <= GaloisElementForColumnRotationBy rQ k.
  Proof. destruct (gal_range 2 rQ (Z.le_refl 2) B2 k) as [H _]. lia. Qed.
  Lemma row_ok : 0 <= GaloisElementForRowRotation rQ.
  Proof.
    destruct (row_rotation 2 rQ (Z.le_refl 2) B2) as [-> _]. pose proof (Nat.pow_nonzero 2 L). rewrite EL. lia.
  Qed.

  Lemma rotate_correct levelK levelP level0 level B rtks key k c out s sk sec M DQ Be Bs :
    secret rQ L sk sec -> key_levels rQ rP levelK levelP ->
    ct_ok rQ level0 B c -> fits rQ B -> words rQ level0 (fun q => 2 * q) (comp c 1) -> decrypts rQ L sk c M ->
    ctDegree c = 1%nat -> shaped 1 level out -> (level <= level0)%nat -> (level <= levelK)%nat ->
    let g := GaloisElementForColumnRotationBy rQ k in k <> 0 -> rtks g = Some key ->
    rotation_key rQ rP L levelK levelP g key sec Be -> blocks_below rQ level levelP DQ -> 0 <= Be -> 0 <= Bs -> pbound n Bs sec ->
    exists c' E, Rotate rQ rP levelP rtks k false c out s = Some c' /\ ct_ok rQ level B c' /\ ctDegree c' = 1%nat /\
      ctScale c' = ctScale c /\ switch_noise rQ rP level levelP DQ Be Bs E /\ decrypts rQ L sk c' (padd (pauto n (Z.to_nat g) M) E).
  Proof.
    intros Hs HK K0 F0 Hw D0 G0 HS Hl HlK g Hk Hrt Hkey HDQ HBe HBs Hb.
    unfold Rotate. replace (ctDegree out) with 1%nat by (unfold ctDegree; rewrite (proj1 HS); reflexivity). rewrite G0. cbn [Nat.eqb negb orb].
    apply Z.eqb_neq in Hk. rewrite Hk. fold g. rewrite Hrt. apply (rotate_core levelK levelP level0 level B key g c out s sk sec M DQ Be Bs); try assumption. apply gal_ok.
  Qed.

  Lemma conjugate_correct levelK levelP level0 level B rtks key c out s sk sec M DQ Be Bs :
    secret rQ L sk sec -> key_levels rQ rP levelK levelP ->
    ct_ok rQ level0 B c -> fits rQ B -> words rQ level0 (fun q => 2 * q) (comp c 1) -> decrypts rQ L sk c M ->
    ctDegree c = 1%nat -> shaped 1 level out -> (level <= level0)%nat -> (level <= levelK)%nat ->
    let g := 2 * Z.of_nat n - 1 in rtks g = Some key ->
    rotation_key rQ rP L levelK levelP g key sec Be -> blocks_below rQ level levelP DQ -> 0 <= Be -> 0 <= Bs -> pbound n Bs sec ->
    exists c' E, Conjugate rQ rP levelP rtks false c out s = Some c' /\ ct_ok rQ level B c' /\ ctDegree c' = 1%nat /\
      ctScale c' = ctScale c /\ switch_noise rQ rP level levelP DQ Be Bs E /\ decrypts rQ L sk c' (padd (pauto n (Z.to_nat g) M) E).
  Proof.
    intros Hs HK K0 F0 Hw D0 G0 HS Hl HlK g Hrt Hkey HDQ HBe HBs Hb.
    unfold Conjugate. replace (ctDegree out) with 1%nat by (unfold ctDegree; rewrite (proj1 HS); reflexivity). rewrite G0. cbn [Nat.eqb negb orb].
    pose proof row_ok as RO. pose proof (proj1 (row_rotation 2 rQ (Z.le_refl 2) B2)) as ER. fold n in ER. fold g in ER. rewrite ER in RO |- *. rewrite Hrt.
    apply (rotate_core levelK levelP level0 level B key g c out s sk sec M DQ Be Bs); assumption.
  Qed.

  (** Rotation by 0 copies. *)
  Lemma rotate_zero levelP level0 level B rtks inplace c out s sk sec M :
    secret rQ L sk sec -> ct_ok rQ level0 B c -> fits rQ B -> decrypts rQ L sk c M ->
    ctDegree c = 1%nat -> shaped 1 level out -> (level <= level0)%nat ->
    exists c', Rotate rQ rP levelP rtks 0 inplace c out s = Some c' /\ ct_ok rQ level B c' /\ ctScale c' = ctScale c /\ decrypts rQ L sk c' M.
  Proof.
    intros Hs K0 F0 D0 G0 HS Hl. destruct (ct_ok_repr rQ BQ L EL level0 B c K0) as [C HC].
    assert (ED : ctDegree out = 1%nat) by (unfold ctDegree; rewrite (proj1 HS); reflexivity).
    unfold Rotate. rewrite ED, G0. cbn [Nat.eqb negb orb]. change (0 =? 0) with true. cbn iota. eexists. split; [reflexivity|].
    assert (N0 := proj1 (proj2 HC)). pose proof (ctDegree_S c (proj1 N0)) as E0. rewrite G0 in E0.
    assert (LN : length (ctV (CopyCt c out)) = 2%nat) by (unfold CopyCt; cbn [ctV]; rewrite (rewrite_length rQ L EL), (proj1 HS); lia).
    assert (HR : ct_repr rQ L level B (CopyCt c out) C).
    { destruct HC as (H1 & H2 & H3 & H4). split; [lia|]. rewrite LN. split; [lia|]. split; [exact H3|]. intros j Hj. destruct (H4 j ltac:(lia)) as [X1 X2].
      unfold CopyCt. rewrite comp_rewrite by lia. change (nth j (ctV c) []) with (comp c j). change (nth j (ctV out) []) with (comp out j).
      rewrite X1. replace (length (comp out j)) with (S level) by (symmetry; apply HS; lia). cbn [Nat.sub]. rewrite !Nat.sub_0_r, Nat.min_r by exact Hl.
      split; [unfold CopyValuesLvl; rewrite lvl_length; replace (length (comp out j)) with (S level) by (symmetry; apply HS; lia); lia|].
      apply (ntt_copy rQ L EL). apply (ntt_level rQ L EL level0); assumption. }
    split; [apply (ct_repr_ok rQ L EL) in HR; exact HR|]. split; [reflexivity|].
    apply (image_decrypts rQ BQ L EL level0 level B B c C _ C sk sec M _ Hs HC F0 HR F0); [exact Hl| |exact D0].
    intros i Hi V. rewrite LN. rewrite <- E0 in V. exact V.
  Qed.
End Rot.
