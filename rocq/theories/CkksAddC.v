(** Addition of a constant. *)
From Verif Require Import Word ModRed Arith Fermat ModRedProofs PolySpec PolyProofs Ring RingProofs NTT NTTProofs RingOps RNSSpec RowProofs OpsProofs OpsProps NTTProps Repr BasisExt CRT BasisProofs BasisProps Automorphism AutoProps Scaling Gadget GadgetSpec GadgetProofs Frlwe FrlweSetup FrlweProps FrlweSwitch RlweSpec Rlwe RlweBase RlweKeys RlweSwitch RlweEnc RlweTop Float64 Ckks CkksSpec CkksBase CkksConst CkksOps.

Section Row.
  Variables (L : nat) (m : modp).
  Hypothesis HL : (2 <= L)%nat.
  Hypothesis Hwf : wf_modp L m.
  Let q := mq m.
  Let N := (2 ^ L)%nat.

  Lemma add_halves_repr c1 c2 a b B row X : q <= B -> B + q <= W -> 0 <= c1 <= q -> 0 <= c2 <= q ->
    eqm q c1 (a + b * root4 L m) -> eqm q c2 (a - b * root4 L m) -> ntt_repr L m B row X ->
    ntt_repr L m B (map (fun x => CRed (wadd x c1) q) (firstn (N / 2) row) ++ map (fun x => CRed (wadd x c2) q) (skipn (N / 2) row)) (padd X (pgauss N a b)).
  Proof.
    intros HB HW R1 R2 E1 E2 [Hr Hk]. fold N in Hr, Hk. fold q in Hk. pose proof (wf_ge L m Hwf) as Q5. fold q in Q5.
    assert (H2 : (N / 2 <= N)%nat) by (apply Nat.div_le_upper_bound; lia).
    assert (LF : length (firstn (N / 2) row) = (N / 2)%nat) by (rewrite firstn_length; lia).
    split; [rewrite app_length, !map_length, LF, skipn_length; fold N; lia|]. fold N. fold q. intros i Hi.
    set (w := if Nat.ltb i (N / 2) then c1 else c2). set (v := if Nat.ltb i (N / 2) then a + b * root4 L m else a - b * root4 L m).
    assert (EN : forall l, l = map (fun x => CRed (wadd x c1) q) (firstn (N / 2) row) ++ map (fun x => CRed (wadd x c2) q) (skipn (N / 2) row) ->
      nth i l 0 = CRed (wadd (nth i row 0) w) q).
    { intros l ->. unfold w. destruct (Nat.ltb_spec i (N / 2)).
      - rewrite app_nth1 by (rewrite map_length, LF; lia). rewrite (nth_map_any _ _ _ 0) by (rewrite LF; lia). rewrite nth_firstn by lia. reflexivity.
      - rewrite app_nth2 by (rewrite map_length, LF; lia). rewrite map_length, LF. rewrite (nth_map_any _ _ _ 0) by (rewrite skipn_length; lia).
        rewrite nth_skipn. do 3 f_equal. lia. }
    rewrite (EN _ eq_refl). destruct (Hk i Hi) as [K1 K2].
    assert (Hw : 0 <= w <= q) by (unfold w; destruct (Nat.ltb _ _); lia).
    assert (Ew : eqm q w v) by (unfold w, v; destruct (Nat.ltb _ _); assumption). clearbody w. clear EN.
    unfold wadd. rewrite w64_small by lia. destruct (cred_word (nth i row 0 + w) q B) as [C1 C2]; try lia. split; [exact C1|].
    rewrite C2. unfold values. rewrite peval_add. fold (values m L X). fold N. apply eqm_add; [exact K2|]. rewrite Ew. symmetry. apply (values_gauss L m HL Hwf). exact Hi.
  Qed.
End Row.

Section AddC.
  Variables (rQ : Ring).
  Hypothesis (BQ : built_ring 9 rQ).
  Variables (L : nat).
  Hypothesis (EL : rN rQ = (2 ^ L)%nat).
  Let n := rN rQ.
  Let B2 : built_ring 2 rQ := one_2 rQ BQ.
  Let q i := mq (rmod rQ i).

  Lemma add_const_repr level re im scale p out B X : fits rQ B -> rns_ntt rQ L level B p X ->
    rns_ntt rQ L level B (add_const_poly rQ level re im scale p out) (padd X (pgauss n (scaled re scale) (scaled im scale))).
  Proof.
    intros HB (A1 & A2 & A3). split; [exact A1|]. split; [unfold add_const_poly; rewrite lvl_length; lia|].
    intros i Hi. unfold add_const_poly. rewrite lvl_nth_lt by lia.
    pose proof (built_wf rQ L B2 EL i ltac:(lia)) as Hwf. destruct (one_mod rQ BQ i ltac:(lia)) as [Q5 Q9].
    destruct (HB i ltac:(lia)) as [F1 F2]. specialize (A3 i Hi).
    pose proof (big_L rQ BQ L EL) as HL.
    pose proof (scale_word rQ BQ L EL re scale i ltac:(lia)) as SR. pose proof (scale_word rQ BQ L EL im scale i ltac:(lia)) as SI.
    set (real := if f64_eq re f64_zero then 0 else scaleUpExact re scale (mq (rmod rQ i))).
    assert (R : 0 <= real <= mq (rmod rQ i) /\ eqm (mq (rmod rQ i)) real (scaled re scale)).
    { unfold real. destruct (f64_eq re f64_zero); [rewrite SR; split; [lia|reflexivity]|exact SR]. }
    clearbody real. clear SR. unfold n. rewrite EL.
    set (a := scaled re scale) in *. set (b := scaled im scale) in *. clearbody a b.
    destruct (f64_eq im f64_zero).
    - subst b. apply (add_halves_repr L (rmod rQ i) HL Hwf); try assumption; try apply R; (rewrite (proj2 R); apply eqm_eq; ring).
    - destruct SI as [Hy Ey]. destruct (psi1 L (rmod rQ i) HL Hwf) as [P1 P2]. destruct R as [R1 R2].
      assert (HM : 0 <= MRed (scaleUpExact im scale (mq (rmod rQ i))) (nth 1 (mpsi (rmod rQ i)) 0) (mq (rmod rQ i)) (mqinv (rmod rQ i)) < mq (rmod rQ i) /\
        eqm (mq (rmod rQ i)) (MRed (scaleUpExact im scale (mq (rmod rQ i))) (nth 1 (mpsi (rmod rQ i)) 0) (mq (rmod rQ i)) (mqinv (rmod rQ i))) (b * root4 L (rmod rQ i))).
      { apply (mred_word (mq (rmod rQ i)) (mqinv (rmod rQ i))) with (B1 := mq (rmod rQ i) + 1) (B2 := mq (rmod rQ i)) (v1 := b) (v2 := W * root4 L (rmod rQ i)); try assumption; try lia.
        - apply (wf_odd L _ Hwf).
        - apply (wf_inv L _ Hwf).
        - rewrite Z.mul_comm. apply Z.mul_le_mono_nonneg_l; lia.
        - apply eqm_eq. ring. }
      set (y := MRed _ _ _ _) in *. destruct HM as [M1 M2]. clearbody y.
      set (Q := mq (rmod rQ i)) in *. set (w4 := root4 L (rmod rQ i)) in *.
      assert (W1 : wadd real y = real + y) by (unfold wadd; apply w64_small; lia).
      assert (W2 : wsub Q y = Q - y) by (unfold wsub; apply w64_small; lia).
      assert (W3 : wadd real (wsub Q y) = real + (Q - y)) by (rewrite W2; unfold wadd; apply w64_small; lia).
      rewrite W1, W3.
      destruct (cred_word (real + y) Q (Q + 1)) as [C1 C2]; try lia.
      destruct (cred_word (real + (Q - y)) Q (Q + 1)) as [C3 C4]; try lia.
      apply (add_halves_repr L (rmod rQ i) HL Hwf); try assumption; fold Q; fold w4; try lia.
      + rewrite C2. apply eqm_add; assumption.
      + rewrite C4. transitivity (real + - y); [apply (eqm_intro _ _ _ 1); ring|]. replace (a - b * w4) with (a + - (b * w4)) by ring. apply eqm_add; [exact R2|apply eqm_opp; exact M2].
  Qed.

  Lemma add_const_correct level B c k sk s M : secret rQ L sk s -> ct_ok rQ level B c -> fits rQ B -> decrypts rQ L sk c M ->
    let '(re, im, _) := getConstAndScale rQ level k in
    ct_ok rQ level B (AddConst rQ c k c) /\ ctDegree (AddConst rQ c k c) = ctDegree c /\ ctScale (AddConst rQ c k c) = ctScale c /\
    decrypts rQ L sk (AddConst rQ c k c) (padd M (pgauss n (scaled re (ctScale c)) (scaled im (ctScale c)))).
  Proof.
    intros Hs Hc HB HD. destruct (ct_ok_repr rQ BQ L EL level B c Hc) as [C HC].
    pose proof (ct_repr_level rQ L EL _ _ _ _ HC) as E1. unfold AddConst. rewrite E1, Nat.min_id.
    destruct (getConstAndScale rQ level k) as [[re im] sc]. destruct HC as (H1 & H2 & H3 & H4).
    set (c' := mkCt _ _ _). set (G := pgauss n (scaled re (ctScale c)) (scaled im (ctScale c))).
    assert (LN : length (ctV c') = length (ctV c)) by (unfold c'; cbn [ctV]; rewrite (rewrite_length rQ L EL); cbn [length]; lia).
    assert (C0 : comp c' 0 = add_const_poly rQ level re im (ctScale c) (comp c 0) (comp c 0)) by reflexivity.
    assert (CS : forall j, comp c' (S j) = comp c (S j)).
    { intros j. unfold c', comp. cbn [ctV]. unfold rewrite_comps. cbn [length seq map app]. destruct (ctV c) as [|x l]; [cbn [length] in H2; lia|]. reflexivity. }
    assert (HR : ct_repr rQ L level B c' (fun j => if Nat.eqb j 0 then padd (C 0%nat) G else C j)).
    { split; [exact H1|]. rewrite LN. split; [exact H2|]. split; [exact H3|]. intros [|j] Hj.
      - rewrite C0. destruct (H4 0%nat Hj) as [L0 R0]. split; [unfold add_const_poly; rewrite lvl_length, L0; lia|]. apply add_const_repr; assumption.
      - rewrite CS. apply H4. exact Hj. }
    split; [apply (ct_repr_ok rQ L EL) in HR; exact HR|]. split; [unfold ctDegree; rewrite LN; reflexivity|]. split; [reflexivity|].
    assert (HC : ct_repr rQ L level B c C) by (split; [exact H1|split; [exact H2|split; [exact H3|exact H4]]]).
    apply (image_decrypts rQ BQ L EL level level B B c C c' _ sk s M _ Hs HC HB HR HB (Nat.le_refl _)); [|exact HD].
    intros i Hi E. rewrite LN. clear - E H2. destruct (length (ctV c)) as [|m] eqn:El; [lia|]. clear El H2.
    assert (X : forall m, peq (rN rQ) (mq (rmod rQ i)) (dval rQ s (fun j => if Nat.eqb j 0 then padd (C 0%nat) G else C j) (S m)) (padd (dval rQ s C (S m)) G)).
    { clear. induction m as [|m IH].
      - rewrite !dval_1. cbn [Nat.eqb]. reflexivity.
      - rewrite (dval_S _ _ _ _ (S m)), IH, (dval_S _ _ _ C (S m)). cbn [Nat.eqb]. intros k Hk. apply eqm_eq. unfold padd. ring. }
    rewrite X. apply padd_peq; [exact E|reflexivity].
  Qed.
End AddC.
