(** Proofs about CkksMore.v: constants added, scales, unreduced sums, hoisted rotations. *)
From Coq Require Import Reals Lra.
From Flocq Require Import Core IEEE754.BinarySingleNaN.
From Verif Require Import Word ModRed Arith Fermat ModRedProofs PolySpec PolyProofs Ring RingProofs NTT NTTProofs RingOps RNSSpec RowProofs OpsProofs OpsProps NTTProps Repr BasisExt CRT BasisProofs BasisProps Automorphism AutoProps Scaling Gadget GadgetSpec GadgetProofs Frlwe FrlweSetup FrlweProps FrlweSwitch RlweSpec Rlwe RlweBase RlweKeys RlweSwitch RlweEnc RlweTop RlweGen Float64 FloatProofs ScalingMore ScalingSpec Ckks CkksSpec CkksBase CkksConst CkksOps CkksFloat CkksAdd CkksMul CkksRescale CkksRot CkksTop CkksMore CkksMoreSpec CkksMoreProofs.
Open Scope Z_scope.


Section NoMod.
  Variables (rQ : Ring).
  Hypothesis (BQ : built_ring 9 rQ).
  Variables (L : nat).
  Hypothesis (EL : rN rQ = (2 ^ L)%nat).
  Let n := rN rQ.
  Let B2 : built_ring 2 rQ := one_2 rQ BQ.
  Let q i := mq (rmod rQ i).

  Lemma ntt_addnomod level B0 B1 p1 p2 out X Y : (forall i, (i <= level)%nat -> B0 (q i) + B1 (q i) <= W + 1) ->
    rns_ntt rQ L level B0 p1 X -> rns_ntt rQ L level B1 p2 Y -> rns_ntt rQ L level (fun q => B0 q + B1 q) (AddNoModLvl rQ level p1 p2 out) (padd X Y).
  Proof.
    intros HB H1 H2. apply (ntt_g _ _ _ _ _ _ EL). apply (ntt_g _ _ _ _ _ _ EL) in H1, H2.
    apply (g_peq _ _ _ _ (fun m k => nttD L X m k + nttD L Y m k)); [intros i k Hi Hk; unfold nttD; rewrite values_add; reflexivity|].
    revert H1 H2. apply g_op2. intros i k x y Hi Hk m Hx Hy E1 E2. specialize (HB i Hi). unfold q in HB. fold m in HB.
    unfold wadd. rewrite w64_small by lia. split; [lia|]. apply eqm_add; assumption.
  Qed.
  Lemma ntt_subnomod level B p1 p2 out X Y : fits rQ (fun q => B q + q) -> rns_ntt rQ L level B p1 X -> rns_ntt rQ L level closed p2 Y ->
    rns_ntt rQ L level (fun q => B q + q) (SubNoModLvl rQ level p1 p2 out) (psub X Y).
  Proof.
    intros HB H1 H2. assert (Hl := proj1 H1). apply (ntt_g _ _ _ _ _ _ EL). apply (ntt_g _ _ _ _ _ _ EL) in H1, H2.
    apply (g_peq _ _ _ _ (fun m k => nttD L X m k - nttD L Y m k)); [intros i k Hi Hk; unfold nttD; rewrite values_sub; reflexivity|].
    revert H1 H2. apply g_op2. intros i k x y Hi Hk m Hx Hy E1 E2. unfold closed in Hy.
    destruct (HB i ltac:(lia)) as [F1 F2]. fold m in F1, F2. destruct (one_mod rQ BQ i ltac:(lia)) as [Q5 Q9]. fold m in Q5, Q9.
    unfold wadd, wsub. rewrite (w64_small (x + mq m)) by lia. rewrite w64_small by lia. split; [lia|].
    transitivity (x - y); [apply (eqm_intro _ _ _ 1); ring|]. apply eqm_sub; assumption.
  Qed.

  Notation combined := (CkksAdd.combined). Notation dval_scale := (CkksAdd.dval_scale rQ).
  Lemma add_nomod level0 level1 lo d B0 B1 c0 c1 out pool sk s M0 M1 : secret rQ L sk s ->
    ct_ok rQ level0 B0 c0 -> ct_ok rQ level1 B1 c1 -> fits rQ B0 -> fits rQ B1 -> fits rQ (fun q => B0 q + B1 q) ->
    decrypts rQ L sk c0 M0 -> decrypts rQ L sk c1 M1 ->
    (1 <= ctDegree c0 + ctDegree c1)%nat -> shaped d lo out -> (ctDegree c0 <= d)%nat -> (ctDegree c1 <= d)%nat ->
    (ctDegree c0 <= ctDegree pool)%nat -> (ctDegree c1 <= ctDegree pool)%nat ->
    let level := Nat.min (Nat.min level0 level1) lo in (level <= ctLevel pool)%nat ->
    let k0 := match_factor (ctScale c1) (ctScale c0) in let k1 := match_factor (ctScale c0) (ctScale c1) in
    1 <= k0 < 2 ^ 52 -> 1 <= k1 < 2 ^ 52 ->
    exists c, AddNoMod rQ c0 c1 out pool = Some c /\ ct_ok rQ level (fun q => B0 q + B1 q) c /\
      ctDegree c = Nat.max (ctDegree c0) (ctDegree c1) /\ ctScale c = MaxFloat64 (ctScale c0) (ctScale c1) /\
      decrypts rQ L sk c (padd (pscale k0 M0) (pscale k1 M1)).
  Proof.
    intros Hs K0 K1 F0 F1 FS D0 D1 Hdeg HS Hd0 Hd1 P0 P1 level Hpl k0 k1 Hk0 Hk1.
    destruct (ct_ok_repr rQ BQ L EL level0 B0 c0 K0) as [C0 HC0]. destruct (ct_ok_repr rQ BQ L EL level1 B1 c1 K1) as [C1 HC1].
    assert (N0 := proj1 (proj2 HC0)). assert (N1 := proj1 (proj2 HC1)).
    pose proof (ctDegree_S c0 (proj1 N0)) as E0. pose proof (ctDegree_S c1 (proj1 N1)) as E1.
    destruct (eval_repr rQ BQ L EL level0 level1 lo d B0 B1 (fun q => B0 q + B1 q) c0 c1 out pool C0 C1 (AddNoModLvl rQ) padd HC0 HC1 F0 F1 HS Hd0 Hd1 Hpl Hk0 Hk1) with (B' := fun q => B0 q + B1 q) as [HR HL].
    { intros p0 p1 o X Y HX HY. split; [|apply lvl_length]. assert (Hl := proj1 HX). revert HX HY. apply ntt_addnomod. intros i Hi. destruct (FS i ltac:(lia)). destruct (one_mod rQ BQ i ltac:(lia)). unfold q. cbv beta in *. lia. }
    { intros i Hi. assert (Hl : (i < length (rmods rQ))%nat) by (destruct HC0 as [H _]; lia). destruct (F0 i Hl), (F1 i Hl). unfold q in *. destruct (one_mod rQ BQ i Hl). cbv beta. lia. }
    fold level in HR. set (res := evaluateInPlace rQ (AddNoModLvl rQ) c0 c1 out pool) in *.
    exists res. split.
    { unfold AddNoMod. rewrite (checks_pass c0 c1 out pool d (proj1 HS) (proj1 (proj2 (proj2 HC0))) (proj1 (proj2 (proj2 HC1))) Hdeg Hd0 Hd1), (pools_pass c0 c1 pool (proj1 N0) (proj1 N1) Hdeg P0 P1). reflexivity. }
    split; [apply (ct_repr_ok rQ L EL) in HR; exact HR|]. split; [unfold ctDegree at 1; rewrite HL; lia|]. split; [reflexivity|].
    apply (image2_decrypts rQ BQ L EL level0 level1 level B0 B1 _ c0 C0 c1 C1 res _ sk s M0 M1 _ Hs HC0 F0 HC1 F1 HR FS); [unfold level; lia|unfold level; lia| |exact D0|exact D1].
    intros i Hi X0 X1. rewrite HL. set (mx := Nat.max (ctDegree c0) (ctDegree c1)).
    fold n in X0, X1. fold (q i) in X0, X1. fold n. fold (q i).
    transitivity (dval rQ s (fun j => padd (pscale k0 (ext C0 (length (ctV c0)) j)) (pscale k1 (ext C1 (length (ctV c1)) j))) (S mx)).
    { apply dval_peq. intros j Hj. unfold combined, ext. fold k0 k1. intros k Hk.
      destruct (Nat.leb_spec j (Nat.min (ctDegree c0) (ctDegree c1))).
      - rewrite (proj2 (Nat.ltb_lt j (length (ctV c0)))) by lia. rewrite (proj2 (Nat.ltb_lt j (length (ctV c1)))) by lia. reflexivity.
      - destruct (Nat.ltb_spec (ctDegree c1) (ctDegree c0)).
        + rewrite (proj2 (Nat.ltb_lt j (length (ctV c0)))) by (unfold mx in *; lia). rewrite (proj2 (Nat.ltb_ge j (length (ctV c1)))) by lia.
          apply eqm_eq. unfold padd, pscale, pzero. ring.
        + rewrite (proj2 (Nat.ltb_ge j (length (ctV c0)))) by lia. rewrite (proj2 (Nat.ltb_lt j (length (ctV c1)))) by (unfold mx in *; lia).
          apply eqm_eq. unfold padd, pscale, pzero. ring. }
    unfold n. rewrite dval_add. apply padd_peq.
    - fold n. rewrite dval_scale. apply pscale_peq. unfold ext, n. rewrite dval_extend by (unfold mx; lia). exact X0.
    - fold n. rewrite dval_scale. apply pscale_peq. unfold ext, n. rewrite dval_extend by (unfold mx; lia). exact X1.
  Qed.

  Lemma sub_nomod level0 level1 lo d B0 c0 c1 out pool sk s M0 M1 : secret rQ L sk s ->
    ct_ok rQ level0 B0 c0 -> ct_ok rQ level1 closed c1 -> fits rQ B0 -> fits rQ (fun q => B0 q + q) ->
    decrypts rQ L sk c0 M0 -> decrypts rQ L sk c1 M1 ->
    (1 <= ctDegree c0 + ctDegree c1)%nat -> shaped d lo out -> (ctDegree c0 <= d)%nat -> (ctDegree c1 <= d)%nat ->
    (ctDegree c0 <= ctDegree pool)%nat -> (ctDegree c1 <= ctDegree pool)%nat ->
    let level := Nat.min (Nat.min level0 level1) lo in (level <= ctLevel pool)%nat ->
    let k0 := match_factor (ctScale c1) (ctScale c0) in let k1 := match_factor (ctScale c0) (ctScale c1) in
    1 <= k0 < 2 ^ 52 -> 1 <= k1 < 2 ^ 52 ->
    exists c, SubNoMod rQ c0 c1 out pool = Some c /\ ct_ok rQ level (fun q => B0 q + q) c /\
      ctDegree c = Nat.max (ctDegree c0) (ctDegree c1) /\ ctScale c = MaxFloat64 (ctScale c0) (ctScale c1) /\
      decrypts rQ L sk c (psub (pscale k0 M0) (pscale k1 M1)).
  Proof.
    intros Hs K0 K1 F0 FB D0 D1 Hdeg HS Hd0 Hd1 P0 P1 level Hpl k0 k1 Hk0 Hk1.
    pose proof (fits_closed rQ BQ L EL) as F1.
    destruct (ct_ok_repr rQ BQ L EL level0 B0 c0 K0) as [C0 HC0]. destruct (ct_ok_repr rQ BQ L EL level1 closed c1 K1) as [C1 HC1].
    assert (N0 := proj1 (proj2 HC0)). assert (N1 := proj1 (proj2 HC1)). assert (LL : (level0 < length (rmods rQ))%nat) by apply HC0.
    pose proof (ctDegree_S c0 (proj1 N0)) as E0. pose proof (ctDegree_S c1 (proj1 N1)) as E1.
    destruct (eval_comps rQ BQ L EL level0 level1 lo d B0 closed (fun q => B0 q + q) c0 c1 out pool C0 C1 (SubNoModLvl rQ) psub HC0 HC1 F0 F1 HS Hd0 Hd1 Hpl Hk0 Hk1) as (HL & HT & HR).
    { intros p0 p1 o X Y HX HY. split; [|apply lvl_length]. revert HX HY. apply ntt_subnomod; exact FB. }
    fold level in HR. set (res := evaluateInPlace rQ (SubNoModLvl rQ) c0 c1 out pool) in *.
    assert (Elr : ctLevel res = level) by (unfold ctLevel; rewrite (proj1 (HR 0%nat ltac:(rewrite HL; lia))); lia).
    assert (E0l := ct_repr_level rQ L EL _ _ _ _ HC0). assert (E1l := ct_repr_level rQ L EL _ _ _ _ HC1).
    set (res' := mkCt (map (fun i => if Nat.ltb (ctDegree c0) i then NegLvl rQ level (comp res i) (comp res i) else comp res i) (seq 0 (length (ctV res)))) (ctScale res) (ctNTT res)).
    assert (ES : SubNoMod rQ c0 c1 out pool = Some res').
    { unfold SubNoMod. rewrite (checks_pass c0 c1 out pool d (proj1 HS) (proj1 (proj2 (proj2 HC0))) (proj1 (proj2 (proj2 HC1))) Hdeg Hd0 Hd1), (pools_pass c0 c1 pool (proj1 N0) (proj1 N1) Hdeg P0 P1).
      cbn [andb]. fold res. rewrite Elr, E0l, E1l. replace (Nat.min (Nat.min level0 level1) level) with level by (unfold level; lia). reflexivity. }
    clearbody res.
    set (B := fun q => B0 q + q) in *. assert (HBB : forall i, (i < length (rmods rQ))%nat -> B0 (q i) <= B (q i) /\ closed (q i) <= B (q i)) by (intros i Hi; destruct (F0 i Hi); destruct (one_mod rQ BQ i Hi); unfold B, closed, q in *; lia).
    set (mx := Nat.max (ctDegree c0) (ctDegree c1)) in *.
    set (C := fun j => psub (pscale k0 (ext C0 (length (ctV c0)) j)) (pscale k1 (ext C1 (length (ctV c1)) j))).
    assert (HR' : ct_repr rQ L level B res' C).
    { split; [unfold level; lia|]. unfold res'. cbn [ctV ctNTT]. rewrite map_length, seq_length, HL. split; [unfold mx, ctDegree; lia|]. split; [exact HT|].
      intros j Hj. destruct (HR j ltac:(rewrite HL; exact Hj)) as [R1 R2]. match goal with |- context [map ?f (seq 0 (S mx))] => set (g := f) end.
      unfold comp. cbn [ctV]. rewrite (nth_map_seq g (S mx) j [] Hj). unfold g. clear g.
      unfold comb_bound, combined in R2. fold k0 k1 in R2. unfold C, ext.
      destruct (Nat.ltb_spec (ctDegree c0) j) as [Hj0|Hj0].
      - assert (L1 : Nat.leb j (Nat.min (ctDegree c0) (ctDegree c1)) = false) by (apply Nat.leb_gt; lia).
        assert (L2 : Nat.ltb (ctDegree c1) (ctDegree c0) = false) by (apply Nat.ltb_ge; unfold mx in *; lia). rewrite L1, L2 in R2.
        rewrite (proj2 (Nat.ltb_ge j (length (ctV c0)))) by lia. rewrite (proj2 (Nat.ltb_lt j (length (ctV c1)))) by (unfold mx in *; lia).
        split; [unfold NegLvl, op1; rewrite lvl_length; lia|].
        apply (ntt_weaken rQ L EL level closed); [intros i Hi; apply HBB; unfold level, mx in *; lia|].
        apply (ntt_peq rQ L EL level closed _ (popp (pscale k1 (C1 j)))); [intros i Hi k Hk; apply eqm_eq; unfold psub, popp, pscale, pzero; ring|].
        apply (ntt_neg rQ BQ L EL). exact R2.
      - rewrite (proj2 (Nat.ltb_lt j (length (ctV c0)))) by lia. split; [exact R1|].
        destruct (Nat.leb_spec j (Nat.min (ctDegree c0) (ctDegree c1))) as [Hjm|Hjm].
        + rewrite (proj2 (Nat.ltb_lt j (length (ctV c1)))) by lia. exact R2.
        + assert (L2 : Nat.ltb (ctDegree c1) (ctDegree c0) = true) by (apply Nat.ltb_lt; lia). rewrite L2 in R2.
          rewrite (proj2 (Nat.ltb_ge j (length (ctV c1)))) by lia.
          apply (ntt_weaken rQ L EL level B0); [intros i Hi; apply HBB; unfold level in Hi; lia|].
          apply (ntt_peq rQ L EL level B0 _ (pscale k0 (C0 j))); [intros i Hi k Hk; apply eqm_eq; unfold psub, popp, pscale, pzero; ring|exact R2]. }
    exists res'. split; [exact ES|].
    split; [apply (ct_repr_ok rQ L EL) in HR'; exact HR'|]. split; [unfold ctDegree at 1, res'; cbn [ctV]; rewrite map_length, seq_length, HL; lia|].
    split; [unfold res'; cbn [ctScale]; clear - ES; unfold SubNoMod in ES; destruct (_ && _) in ES; [|discriminate ES]; injection ES as _ ES _; rewrite <- ES; reflexivity|].
    apply (image2_decrypts rQ BQ L EL level0 level1 level B0 closed B c0 C0 c1 C1 res' C sk s M0 M1 _ Hs HC0 F0 HC1 F1 HR' FB); [unfold level; lia|unfold level; lia| |exact D0|exact D1].
    intros i Hi X0 X1. unfold res'. cbn [ctV]. rewrite map_length, seq_length, HL. unfold C.
    fold n in X0, X1. fold (q i) in X0, X1. fold n. fold (q i).
    transitivity (dval rQ s (fun j => padd (pscale k0 (ext C0 (length (ctV c0)) j)) (popp (pscale k1 (ext C1 (length (ctV c1)) j)))) (S mx)).
    { apply dval_peq. intros j Hj k Hk. apply eqm_eq. unfold psub, padd, popp. ring. }
    transitivity (padd (pscale k0 M0) (popp (pscale k1 M1))); [|intros k Hk; apply eqm_eq; unfold psub, padd, popp; ring].
    unfold n. rewrite dval_add. apply padd_peq.
    - fold n. rewrite dval_scale. apply pscale_peq. unfold ext, n. rewrite dval_extend by (unfold mx; lia). exact X0.
    - rewrite dval_opp. fold n. intros k Hk. unfold popp. apply eqm_opp. revert k Hk. fold (peq n (q i) (dval rQ s (fun j => pscale k1 (ext C1 (length (ctV c1)) j)) (S mx)) (pscale k1 M1)).
      rewrite dval_scale. apply pscale_peq. unfold ext, n. rewrite dval_extend by (unfold mx; lia). exact X1.
  Qed.

  (** ** Reduce *)
  Lemma ct_reduce level level' B c out sk s M : secret rQ L sk s -> ct_ok rQ level B c -> fits rQ B ->
    decrypts rQ L sk c M -> shaped (ctDegree c) level' out -> (level' <= level)%nat ->
    exists c', Reduce rQ c out = Some c' /\ ct_ok rQ level' canon c' /\ ctDegree c' = ctDegree c /\ ctScale c' = ctScale c /\ decrypts rQ L sk c' M.
  Proof.
    intros Hs Hc HB HD HS Hl. destruct (ct_ok_repr rQ BQ L EL level B c Hc) as [C HC].
    pose proof (ct_repr_level rQ L EL _ _ _ _ HC) as E1. pose proof (shaped_level _ _ _ HS) as E2. assert (H1 := proj1 HC).
    assert (NP : (0 < length (ctV c))%nat) by apply Hc. pose proof (ctDegree_S c NP) as ED.
    assert (E3 : ctDegree out = ctDegree c) by (unfold ctDegree at 1; rewrite (proj1 HS); lia).
    unfold Reduce. rewrite E3, Nat.eqb_refl, E1, E2, Nat.min_r by exact Hl. cbn [negb].
    eexists. split; [reflexivity|].
    assert (HR : ct_repr rQ L level' canon (mkCt (rewrite_comps (ReduceLvl rQ level') (ctV c) (ctV out)) (ctScale c) (ctNTT out)) C).
    { apply (rewrite_repr rQ L EL (ReduceLvl rQ level') (fun X => X) level level' B); try assumption; [apply HS|].
      intros p X o Hp. split; [|unfold ReduceLvl, op1; apply lvl_length].
      apply (n_reduce rQ L B2 EL level' B); [|exact Hp]. intros i Hi. apply (fits_W rQ BQ L EL B HB). lia. }
    split; [apply (ct_repr_ok rQ L EL) in HR; exact HR|].
    assert (LN : length (rewrite_comps (ReduceLvl rQ level') (ctV c) (ctV out)) = length (ctV c)) by (rewrite (rewrite_length rQ L EL), (proj1 HS); lia).
    split; [unfold ctDegree; cbn [ctV]; lia|]. split; [reflexivity|].
    apply (image_decrypts rQ BQ L EL level level' B canon c C _ C sk s M _ Hs HC HB HR (fits_canon rQ BQ L EL)); [exact Hl| |exact HD].
    intros i Hi V. cbn [ctV]. rewrite LN. exact V.
  Qed.

  (** ** MulByPow2 *)
  Lemma ntt_pow2 level p k X : 0 <= k <= 64 -> rns_ntt rQ L level canon p X -> rns_ntt rQ L level canon (MulByPow2Lvl_inplace rQ k level p) (pscale (2 ^ k) X).
  Proof.
    intros Hk HX. assert (Hl := proj1 HX). unfold MulByPow2Lvl_inplace. cbv zeta.
    pose proof (mform_ct rQ BQ L EL level canon p p X (fits_canon rQ BQ L EL) HX) as HM. apply (ntt_g _ _ _ _ _ _ EL). apply (ntt_g _ _ _ _ _ _ EL) in HM.
    apply (g_peq _ _ _ _ (fun m j => 2 ^ k * nttD L X m j)); [intros i j Hi Hj; unfold nttD; rewrite values_scale; reflexivity|].
    revert HM. apply g_op1. intros i j x Hi Hj m Hx E. unfold canon in Hx. destruct (built_mod 9 rQ i ltac:(lia) BQ ltac:(lia)) as (Q5 & Q4 & Qo & Eb & Ei & Hinv). fold m in Q5, Q4, Qo, Eb, Ei, Hinv.
    assert (P : 1 <= 2 ^ k) by (pose proof (Z.pow_pos_nonneg 2 k); lia).
    destruct (PowerOf2_correct x k (mq m) (mqinv m)) as [R1 R2]; try assumption; try lia.
    { assert (P' : 2 ^ k <= W) by (change W with (2 ^ 64); apply Z.pow_le_mono_r; lia).
      assert (0 < W) by reflexivity. clear -Hx P P'. nia. }
    split; [exact R1|]. apply odd_cancel_W; [lia|exact Qo|]. rewrite R2, E. unfold nttD. rewrite values_scale. apply eqm_eq. ring.
  Qed.
  Lemma pow2_correct level c k sk s M : secret rQ L sk s -> ct_ok rQ level canon c -> decrypts rQ L sk c M -> 0 <= k <= 64 ->
    let c' := MulByPow2_inplace rQ c k in
    ct_ok rQ level canon c' /\ ctDegree c' = ctDegree c /\ ctScale c' = ctScale c /\ decrypts rQ L sk c' (pscale (2 ^ k) M).
  Proof.
    intros Hs Hc HD Hk c'. destruct (ct_ok_repr rQ BQ L EL level canon c Hc) as [C HC].
    pose proof (ct_repr_level rQ L EL _ _ _ _ HC) as E1. destruct HC as (H1 & H2 & H3 & H4).
    assert (HR : ct_repr rQ L level canon c' (fun j => pscale (2 ^ k) (C j))).
    { split; [exact H1|]. unfold c', MulByPow2_inplace. cbn [ctV ctNTT]. rewrite map_length. split; [exact H2|]. split; [exact H3|].
      intros j Hj. unfold comp. cbn [ctV]. rewrite E1.
      rewrite nth_indep with (d' := MulByPow2Lvl_inplace rQ k level []) by (rewrite map_length; exact Hj). rewrite map_nth.
      change (nth j (ctV c) []) with (comp c j). destruct (H4 j Hj) as [X1 X2].
      split; [unfold MulByPow2Lvl_inplace, MFormLvl, op1; rewrite !lvl_length; lia|]. apply ntt_pow2; assumption. }
    split; [apply (ct_repr_ok rQ L EL) in HR; exact HR|]. split; [unfold ctDegree, c', MulByPow2_inplace; cbn [ctV]; rewrite map_length; reflexivity|]. split; [reflexivity|].
    assert (HC : ct_repr rQ L level canon c C) by (split; [exact H1|]; split; [exact H2|]; split; [exact H3|exact H4]).
    apply (image_decrypts rQ BQ L EL level level canon canon c C c' _ sk s M _ Hs HC (fits_canon rQ BQ L EL) HR (fits_canon rQ BQ L EL)); [lia| |exact HD].
    intros i Hi V. replace (length (ctV c')) with (length (ctV c)) by (unfold c', MulByPow2_inplace; cbn [ctV]; rewrite map_length; reflexivity).
    fold n in V |- *. rewrite (CkksAdd.dval_scale rQ). apply pscale_peq. exact V.
  Qed.

  (** To another receiver: the factor W^-1 of C51. *)
  Lemma ntt_pow2_other level p o k X : 0 <= k <= 64 -> rns_ntt rQ L level canon p X ->
    words rQ level canon (MulByPow2Lvl rQ k level p o) /\ rns_ntt rQ L level canon (MFormLvl rQ level (MulByPow2Lvl rQ k level p o) []) (pscale (2 ^ k) X).
  Proof.
    intros Hk HX. assert (Hl := proj1 HX). unfold MulByPow2Lvl. cbv zeta. set (o' := MFormLvl rQ level p o).
    assert (HP : forall m x, In m (rmods rQ) -> 0 <= x < mq m -> 0 <= PowerOf2 x k (mq m) (mqinv m) < mq m /\ eqm (mq m) (PowerOf2 x k (mq m) (mqinv m) * W) (x * 2 ^ k)).
    { intros m x Hm Hx. apply (In_nth _ _ modp0) in Hm. destruct Hm as (i & Hi & <-). change (nth i (rmods rQ) modp0) with (rmod rQ i) in *.
      destruct (built_mod 9 rQ i ltac:(lia) BQ Hi) as (Q5 & Q4 & Qo & Eb & Ei & Hinv).
      assert (P : 1 <= 2 ^ k) by (pose proof (Z.pow_pos_nonneg 2 k); lia).
      apply PowerOf2_correct; try assumption; try lia.
      assert (P' : 2 ^ k <= W) by (change W with (2 ^ 64); apply Z.pow_le_mono_r; lia).
      assert (0 < W) by reflexivity. clear -Hx P P'. nia. }
    apply (ntt_g _ _ _ _ _ _ EL) in HX. split.
    - destruct HX as (X1 & X2 & X3). split; [unfold op1; rewrite lvl_length; lia|]. intros i Hi. destruct (X3 i Hi) as [X4 X5]. split; [unfold op1; rewrite lvl_nth_lt by lia; rewrite map_length; exact X4|].
      intros j Hj. destruct (X5 j Hj) as [X6 _]. rewrite op1_coeff; [|lia|unfold prow; lia]. unfold canon in *. apply HP; [apply nth_In; lia|exact X6].
    - apply (ntt_g _ _ _ _ _ _ EL). apply (g_peq _ _ _ _ (fun m j => 2 ^ k * nttD L X m j)); [intros i j Hi Hj; unfold nttD; rewrite values_scale; reflexivity|].
      unfold MFormLvl. apply (g_op1 rQ _ level canon canon _ _ (fun m j => PowerOf2 (nttD L X m j mod mq m) k (mq m) (mqinv m))).
      + intros i j x Hi Hj m Hx E. destruct (built_mod 9 rQ i ltac:(lia) BQ ltac:(lia)) as (Q5 & Q4 & Qo & Eb & Ei & Hinv). fold m in Q5, Q4, Qo, Eb, Ei, Hinv.
        rewrite Eb, MForm_correct by (unfold canon in Hx; lia). split; [apply Z.mod_pos_bound; lia|]. rewrite eqm_mod.
        assert (Hm : In m (rmods rQ)) by (apply nth_In; lia).
        transitivity (PowerOf2 (nttD L X m j mod mq m) k (mq m) (mqinv m) * W); [apply eqm_mul; [exact E|reflexivity]|].
        rewrite (proj2 (HP m (nttD L X m j mod mq m) Hm ltac:(apply Z.mod_pos_bound; lia))). rewrite eqm_mod. apply eqm_eq. ring.
      + revert HX. apply g_op1. intros i j x Hi Hj m Hx E. assert (Hm : In m (rmods rQ)) by (apply nth_In; lia). unfold canon in Hx. destruct (HP m x Hm Hx) as [P1 _]. split; [exact P1|].
        apply eqm_eq. f_equal. apply eqm_mod_eq; [exact Hx|exact E].
  Qed.
  Lemma pow2_other level level' c k out sk s M : secret rQ L sk s -> ct_ok rQ level canon c -> decrypts rQ L sk c M -> 0 <= k <= 64 ->
    shaped (ctDegree c) level' out -> (level' <= level)%nat ->
    let c' := MulByPow2 rQ c k out in
    ct_ok rQ level' canon c' /\ exists M', decrypts rQ L sk c' M' /\ forall i, (i <= level')%nat -> peq n (q i) (pscale W M') (pscale (2 ^ k) M).
  Proof.
    intros Hs Hc HD Hk HS Hl c'. destruct (ct_ok_repr rQ BQ L EL level canon c Hc) as [C HC].
    pose proof (ct_repr_level rQ L EL _ _ _ _ HC) as E1. pose proof (shaped_level _ _ _ HS) as E2.
    assert (NP : (0 < length (ctV c))%nat) by apply Hc. pose proof (ctDegree_S c NP) as ED.
    assert (EV : length (ctV c') = length (ctV c)) by (unfold c', MulByPow2; cbn [ctV]; rewrite map_length, seq_length, (proj1 HS); exact ED).
    assert (EC : forall j, (j < length (ctV c))%nat -> comp c' j = MulByPow2Lvl rQ k level' (comp c j) (comp out j)).
    { intros j Hj. unfold c', MulByPow2, comp at 1. cbn [ctV]. rewrite E1, E2, Nat.min_r by exact Hl. rewrite (proj1 HS), ED.
      apply (nth_map_seq (fun i => MulByPow2Lvl rQ k level' (comp c i) (comp out i))). exact Hj. }
    assert (RC : forall j, (j < length (ctV c))%nat -> rns_ntt rQ L level' canon (comp c j) (C j)) by (intros j Hj; apply (ntt_level rQ L EL level level'); [exact Hl|apply HC; exact Hj]).
    assert (OK : ct_ok rQ level' canon c').
    { destruct Hc as (H1 & H2 & H3 & H4). split; [lia|]. rewrite EV. split; [exact H2|]. split; [apply HS|]. intros j Hj. rewrite EC by exact Hj. split.
      - unfold MulByPow2Lvl, op1. cbv zeta. unfold MFormLvl, op1. rewrite !lvl_length. destruct HS as (_ & _ & HS). rewrite HS by (unfold ctDegree; lia). lia.
      - apply (ntt_pow2_other level' (comp c j) (comp out j) k (C j) Hk). apply RC. exact Hj. }
    split; [exact OK|]. destruct (ct_ok_repr rQ BQ L EL level' canon c' OK) as [C' HC'].
    exists (dval rQ s C' (length (ctV c'))). split; [apply (decrypts_iff rQ BQ L EL level' canon c' C' sk s _ HC' (fits_canon rQ BQ L EL) Hs); intros i Hi; reflexivity|].
    intros i Hi. pose proof (proj1 (decrypts_iff rQ BQ L EL level canon c C sk s M HC (fits_canon rQ BQ L EL) Hs) HD i ltac:(lia)) as V. fold n in V |- *. fold (q i) in V |- *.
    rewrite <- (CkksAdd.dval_scale rQ). transitivity (pscale (2 ^ k) (dval rQ s C (length (ctV c)))); [|apply pscale_peq; exact V].
    rewrite <- (CkksAdd.dval_scale rQ). rewrite EV. apply dval_peq. intros j Hj.
    apply (ntt_unique rQ L level' (MFormLvl rQ level' (comp c' j) []) _ _ BQ EL); [| |exact Hi].
    - apply (mform_ct rQ BQ L EL level' canon); [apply (fits_canon rQ BQ L EL)|]. apply HC'. rewrite EV. exact Hj.
    - rewrite EC by exact Hj. apply ntt_pow2_other; [exact Hk|]. apply RC. exact Hj.
  Qed.
End NoMod.

(** ** Hoisted rotations *)
Section Hoist.
  Variables (rQ rP : Ring) (L : nat).
  Hypothesis (HP : ring_pair rQ rP) (EL : rN rQ = (2 ^ L)%nat).
  Let n := rN rQ.
  Let BQ : built_ring 9 rQ := k_Q rQ rP HP.
  Let B2 : built_ring 2 rQ := one_2 rQ BQ.
  Let q i := mq (rmod rQ i).

  Lemma hoisted_core levelK levelP level0 level B rtks key k c p0 p1 p0P p1P out0 out1 poolInv pools sk sec M DQ Be Bs :
    secret rQ L sk sec -> key_levels rQ rP levelK levelP ->
    ct_ok rQ level0 B c -> fits rQ B -> words rQ level0 canon (comp c 1) -> decrypts rQ L sk c M ->
    ctDegree c = 1%nat -> length out0 = S level -> length out1 = S level -> (level <= level0)%nat -> (level <= levelK)%nat ->
    let g := GaloisElementForColumnRotationBy rQ k in k <> 0 -> rtks g = Some key ->
    rotation_key rQ rP L levelK levelP g key sec Be -> blocks_below rQ level levelP DQ -> 0 <= Be -> 0 <= Bs -> pbound n Bs sec ->
    let dig := DecomposeNTT rQ rP level levelP (levelP + 1) (comp c 1) true poolInv pools in
    exists o0 o1 E, RotateHoisted rQ rP level levelP rtks k (comp c 0) (comp c 1) dig p0 p1 p0P p1P out0 out1 = Some (o0, o1) /\
      ct_ok rQ level B (mkCt [o0; o1] (ctScale c) true) /\
      switch_noise rQ rP level levelP DQ Be Bs E /\ decrypts rQ L sk (mkCt [o0; o1] (ctScale c) true) (padd (pauto n (Z.to_nat g) M) E).
  Proof.
    intros Hs HK K0 F0 Hw D0 G0 HS0 HS1 Hl HlK g Hk Hrt (h & Hh & Ho & Hgh & Hkey) HDQ HBe HBs Hb dig. fold n in Hgh.
    pose proof (gal_ok rQ rP L HP EL k) as Hg. fold g in Hg.
    assert (NP : 0 < Z.of_nat n) by (unfold n; rewrite EL; pose proof (Nat.pow_nonzero 2 L); lia).
    destruct (odd_factors g h _ Hgh NP) as [Og Oh].
    assert (OgN : Nat.odd (Z.to_nat g) = true) by (apply Nodd_Z; assumption).
    assert (Hb' : pbound n Bs (pauto n (Z.to_nat h) sec)).
    { unfold n. rewrite EL. apply (pauto_pbound L (Z.to_nat g)); [apply Nodd_Z; assumption| |unfold n in Hb; rewrite EL in Hb; exact Hb].
      apply Nat2Z.inj. rewrite !Nat2Z.inj_mod, Nat2Z.inj_mul, !Z2Nat.id by assumption. rewrite Z.mul_comm.
      unfold n in Hgh, NP. rewrite EL in Hgh, NP. set (N := Z.of_nat (2 ^ L)) in *. clearbody N.
      transitivity (((g * h) mod (2 * N)) mod N); [|rewrite Hgh; reflexivity]. apply Zmod_div_mod; [lia|lia|]. exists 2. ring. }
    destruct (ct_ok_repr rQ BQ L EL level0 B c K0) as [C HC]. assert (N0 := proj1 (proj2 HC)).
    pose proof (ctDegree_S c (proj1 N0)) as E0. rewrite G0 in E0. pose proof (ct_repr_level rQ L EL _ _ _ _ HC) as Ec.
    assert (Hl0 : (level0 < length (rmods rQ))%nat) by apply HC.
    assert (Rc : forall j, (j < 2)%nat -> rns_ntt rQ L level B (comp c j) (C j)) by (intros j Hj; destruct HC as (_ & _ & _ & HC); apply (ntt_level rQ L EL level0); [exact Hl|apply HC; lia]).
    assert (R2 : rns_ntt rQ L level canon (comp c 1) (C 1%nat)).
    { destruct (Rc 1%nat ltac:(lia)) as (A1 & A2 & A3). split; [exact A1|]. split; [exact A2|]. intros i Hi. destruct (A3 i Hi) as [A4 A5]. split; [exact A4|].
      intros j Hj. split; [|apply A5; exact Hj]. destruct Hw as [_ Hw]. apply Hw; [lia|rewrite EL; exact Hj]. }
    destruct (switch_simple rQ rP L HP EL levelK level levelP (comp c 1) true (C 1%nat) key poolInv ([], []) p0P p1P p0 p1 (pauto n (Z.to_nat h) sec) sec DQ Be Bs HK HlK) as (x1 & x2 & P1 & P2 & E & Y1 & Y2 & Y3 & Y4 & Y5 & Y6 & Y7).
    { exact R2. }
    { exact Hkey. }
    { exact HDQ. }
    { exact HBe. }
    { exact HBs. }
    { exact Hb'. }
    unfold RotateHoisted. apply Z.eqb_neq in Hk. rewrite Hk. fold g. rewrite Hrt. unfold PermuteNTTHoisted, dig.
    rewrite (hoisted_same rQ rP level levelP (comp c 1) (fst key) (snd key) poolInv ([], []) pools). rewrite Y1. cbn [rns_dom] in Y2, Y3.
    set (o0 := PermuteNTTLvl rQ level _ g out0). set (o1 := PermuteNTTLvl rQ level _ g out1). exists o0, o1, (pauto n (Z.to_nat g) E). split; [reflexivity|].
    set (c' := mkCt _ _ _). set (C' := fun j => nth j [pauto n (Z.to_nat g) (padd P1 (C 0%nat)); pauto n (Z.to_nat g) P2] pzero).
    assert (HR : ct_repr rQ L level B c' C').
    { split; [lia|]. split; [cbn [c' ctV length]; lia|]. split; [reflexivity|].
      intros [|[|j]] Hj; unfold c', comp, C'; cbn [ctV nth]; [| |cbn [c' ctV length] in Hj; lia].
      - split; [unfold o0, PermuteNTTLvl, PermuteNTTWithIndexLvl; rewrite lvl_length; lia|]. apply (permute_ntt_index 9); [lia|exact BQ|exact EL|exact Hg|exact Og|].
        apply (n_add rQ L B2 EL level canon B); [|exact Y2|apply (Rc 0%nat); lia]. intros i Hi. destruct (F0 i ltac:(lia)). unfold canon. lia.
      - split; [unfold o1, PermuteNTTLvl, PermuteNTTWithIndexLvl; rewrite lvl_length; lia|]. apply (permute_ntt_index 9); [lia|exact BQ|exact EL|exact Hg|exact Og|].
        revert Y3. apply (ntt_weaken rQ L EL). intros i Hi. apply (F0 i). lia. }
    split; [apply (ct_repr_ok rQ L EL) in HR; exact HR|].
    split; [apply (noise_auto rQ rP L EL g h); assumption|].
    apply (image_decrypts rQ BQ L EL level0 level B B c C c' C' sk sec M _ Hs HC F0 HR F0); [exact Hl| |exact D0].
    intros i Hi V. change (length (ctV c')) with 2%nat. rewrite <- E0 in V. rewrite dval_2 in V |- *. unfold C'. cbn [nth]. specialize (Y6 i Hi). fold n in V |- *.
    clear - Y6 V OgN NP Hgh Hg Hh EL.
    assert (NZ : (0 < n)%nat) by lia.
    assert (SB : peq n (mq (rmod rQ i)) (pauto n (Z.to_nat g) (pauto n (Z.to_nat h) sec)) sec).
    { rewrite pauto_comp by assumption. rewrite <- pauto_mod by assumption.
      replace ((Z.to_nat g * Z.to_nat h) mod (2 * n))%nat with 1%nat; [apply pauto_id; exact NZ|].
      apply Nat2Z.inj. rewrite Nat2Z.inj_mod, !Nat2Z.inj_mul, !Z2Nat.id by assumption. symmetry. exact Hgh. }
    transitivity (pauto n (Z.to_nat g) (padd (padd P1 (C 0%nat)) (pmul n P2 (pauto n (Z.to_nat h) sec)))).
    { rewrite (pauto_add n _ _ (padd P1 (C 0%nat))), pauto_mul by assumption. apply padd_peq; [reflexivity|]. apply pmul_peq; [reflexivity|symmetry; exact SB]. }
    rewrite <- pauto_add. apply pauto_peq. rewrite <- V.
    transitivity (padd (C 0%nat) (padd P1 (pmul n P2 (pauto n (Z.to_nat h) sec)))); [intros j Hj; apply eqm_eq; unfold padd; ring|].
    transitivity (padd (C 0%nat) (padd (pmul n (C 1%nat) sec) E)); [apply padd_peq; [reflexivity|exact Y6]|]. intros j Hj. apply eqm_eq. unfold padd. ring.
  Qed.
End Hoist.

(** ** MultByiNew, DivByiNew of ciphertexts of degree 1 *)
Lemma mult_i_new rQ : built_ring 9 rQ -> forall L, rN rQ = (2 ^ L)%nat -> forall level B inverse c sk s M,
  secret rQ L sk s -> ct_ok rQ level B c -> fits rQ B -> ctDegree c = 1%nat -> decrypts rQ L sk c M ->
  let c' := MultByiNew rQ inverse c in
  ct_ok rQ level canon c' /\ ctDegree c' = 1%nat /\ ctScale c' = ctScale c /\
  decrypts rQ L sk c' (pmul (rN rQ) (pgauss (rN rQ) 0 (if inverse then -1 else 1)) M).
Proof.
  intros BQ L EL level B inverse c sk s M Hs Hc HB Hd D.
  assert (E : ctLevel c = level). { destruct Hc as (_ & K2 & _ & K3). unfold ctLevel. destruct (K3 0%nat ltac:(lia)) as [-> _]. lia. }
  unfold MultByiNew. rewrite E.
  assert (S1 : shaped (ctDegree c) level (NewCiphertext (rN rQ) 1 level (ctScale c))).
  { rewrite Hd. split; [reflexivity|]. split; [reflexivity|]. intros j Hj. unfold comp, NewCiphertext. cbn [ctV repeat].
    destruct j as [|[|j]]; [| |lia]; cbn [nth]; unfold zero_rows; apply repeat_length. }
  destruct (mult_by_i rQ BQ L EL level level B inverse c (NewCiphertext (rN rQ) 1 level (ctScale c)) sk s M Hs Hc HB D S1 (le_n level)) as [A1 A2].
  split; [exact A1|]. split; [reflexivity|]. split; [reflexivity|exact A2].
Qed.

(** ** SetScale refuses *)
Lemma set_scale_refuses r c scale : (0 < length (ctV c))%nat -> f64_le scale f64_zero = true \/ length (comp c 0) = 1%nat -> SetScale r c scale = Panic.
Proof.
  destruct c as [vs sc0 t]. unfold comp. cbn [ctV]. destruct vs as [|x l]; [cbn [length]; lia|]. cbn [nth]. intros _ H. unfold SetScale. unfold Rescale at 1. destruct (f64_le scale f64_zero) eqn:E1; [reflexivity|]. cbn [ctScale]. destruct H as [H|H]; [discriminate|].
  destruct (f64_eq _ _); [reflexivity|].
  assert (E : ctLevel (MultByConst r (mkCt (x :: l) sc0 t) (CFloat (f64_div scale sc0)) (mkCt (x :: l) sc0 t)) = 0%nat).
  { unfold MultByConst, ctLevel, comp. cbn [ctV nth]. rewrite H. cbn [Nat.sub Nat.min]. destruct (getConstAndScale _ _ _) as [[re im] sc]. unfold rewrite_comps. cbn [ctV nth length seq map app].
    unfold mul_const_poly. rewrite lvl_length, H. reflexivity. }
  cbn [ctScale]. rewrite E. reflexivity.
Qed.
