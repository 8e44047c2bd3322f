(** Rotations modulo QP, their sums, and one division by P. *)
From Verif Require Import Word ModRed Arith Fermat ModRedProofs PolySpec PolyProofs Ring RingProofs NTT NTTProofs RingOps RNSSpec RowProofs OpsProofs OpsProps NTTProps Repr BasisExt CRT BasisProofs BasisProps Automorphism AutoProps Scaling Gadget GadgetSpec GadgetProofs Frlwe FrlweSetup FrlweProps FrlweSwitch RlweSpec Rlwe RlweBase RlweKeys RlweSwitch RlweEnc RlweTop RlweGen Float64 Ckks CkksSpec CkksBase CkksConst CkksOps CkksAdd CkksMul CkksRot CkksNoMod CkksTop Lazy LazySpec LazyProofs.
Open Scope Z_scope.

Section Top.
  Variables (rQ rP : Ring) (L : nat).
  Hypothesis (HP : ring_pair rQ rP) (EL : rN rQ = (2 ^ L)%nat).
  Let n := rN rQ.
  Let BQ : built_ring 9 rQ := k_Q rQ rP HP.
  Let BP : built_ring 9 rP := k_P rQ rP HP.
  Let B2 : built_ring 2 rQ := one_2 rQ BQ.
  Let q i := mq (rmod rQ i).

  Lemma scalar_ct level B s p out X : fits rQ B -> rns_ntt rQ L level B p X -> rns_ntt rQ L level canon (MulScalarBigintLvl rQ s level p out) (pscale s X).
  Proof.
    intros HB H. assert (Hl := proj1 H). apply (ntt_g _ _ _ _ _ _ EL). apply (ntt_g _ _ _ _ _ _ EL) in H.
    apply (g_peq _ _ _ _ (fun m k => s * nttD L X m k)); [intros i k Hi Hk; unfold nttD; rewrite values_scale; reflexivity|].
    revert H. unfold MulScalarBigintLvl. apply g_op1. intros i k x Hi Hk m Hx E.
    destruct (built_mod 9 rQ i ltac:(lia) BQ ltac:(lia)) as (Q5 & Q9 & Qo & Eb & Ei & Hinv). fold m in Q5, Q9, Qo, Eb, Hinv.
    pose proof (fits_W rQ BQ L EL B HB i ltac:(lia)) as FW. fold m in FW.
    assert (Hs := Z.mod_pos_bound s (mq m) ltac:(lia)).
    rewrite Eb. rewrite BRedAdd_correct by lia. rewrite (Z.mod_small (s mod mq m)) by exact Hs.
    rewrite MForm_correct by lia. set (y := (s mod mq m * W) mod mq m).
    assert (Hy : 0 <= y < mq m) by (apply Z.mod_pos_bound; lia).
    assert (Ey : eqm (mq m) y (s * W)).
    { unfold y. apply (eqm_trans _ _ (s mod mq m * W)); [apply eqm_mod|]. apply eqm_mul; [apply eqm_mod|reflexivity]. }
    clearbody y.
    apply (mred_word (mq m) (mqinv m) Q5 ltac:(lia) Qo Hinv x y (B (mq m)) (mq m) (nttD L X m k) (s * W)); try assumption.
    - rewrite (Z.mul_comm (B (mq m))). apply Z.mul_le_mono_nonneg_l; [lia|exact FW].
    - apply eqm_eq. ring.
  Qed.

  Lemma lazy_auto levelQ levelP count g h DQ Be F : 0 <= g -> 0 <= h -> Z.odd g = true -> (g * h) mod (2 * Z.of_nat n) = 1 ->
    lazy_noise rQ levelQ levelP count DQ Be F -> lazy_noise rQ levelQ levelP count DQ Be (pauto n (Z.to_nat g) F).
  Proof.
    intros Hg Hh Ho Hgh HE k Hk. fold n in Hk. unfold n in *. rewrite EL in *.
    destruct (pauto_coeff L (Z.to_nat h) (Z.to_nat g)) with (X := F) (k := k) as (i & Hi & Eq).
    - apply Nodd_Z; assumption.
    - apply Nat2Z.inj. rewrite !Nat2Z.inj_mod, Nat2Z.inj_mul, !Z2Nat.id by assumption.
      assert (P : 0 < Z.of_nat (2 ^ L)) by (pose proof (Nat.pow_nonzero 2 L); lia). set (N := Z.of_nat (2 ^ L)) in *. clearbody N.
      transitivity (((g * h) mod (2 * N)) mod N); [|rewrite Hgh; reflexivity]. apply Zmod_div_mod; [lia|lia|]. exists 2. ring.
    - exact Hk.
    - unfold lazy_noise in HE. rewrite EL in HE. specialize (HE i Hi). rewrite Eq. exact HE.
  Qed.

  (** The permutation of the rows of P by the index of Q. *)
  Lemma permute_P level B p out g X : 0 <= g -> Z.odd g = true -> rns_ntt rP L level B p X ->
    rns_ntt rP L level B (PermuteNTTWithIndexLvl rQ level p (PermuteNTTIndex rQ g) out) (pauto n (Z.to_nat g) X).
  Proof.
    intros Hg Og HX. rewrite <- (PermuteNTTIndex_same rQ rP g BQ BP (k_N rQ rP HP)). unfold n. rewrite <- (k_N rQ rP HP).
    apply (permute_ntt_index 9 rP L level B p out g X); try assumption; [lia|apply (k_ELP rQ rP L HP EL)].
  Qed.

  Let lP := maxLevel rP.

  (** One rotation. *)
  Lemma rotation_lazy levelK level0 level B rtks key k c pool out poolInv pools sk sec M DQ Be :
    secret rQ L sk sec -> key_levels rQ rP levelK lP ->
    ct_ok rQ level0 B c -> fits rQ B -> words rQ level0 canon (comp c 1) -> decrypts rQ L sk c M ->
    ctDegree c = 1%nat -> (level <= level0)%nat -> (level <= levelK)%nat ->
    let g := GaloisElementForColumnRotationBy rQ k in rtks g = Some key ->
    rotation_key rQ rP L levelK lP g key sec Be -> blocks_below rQ level lP DQ -> 0 <= Be ->
    pair_rows level lP out ->
    let dig := DecomposeNTT rQ rP level lP (lP + 1) (comp c 1) true poolInv pools in
    exists x F, PermuteNTTHoistedNoModDown rQ rP level rtks (comp c 0) dig k pool out = Some x /\
      pair_rows level lP x /\ lazy_ct rQ rP L level lP x sec (pauto n (Z.to_nat g) M) F /\ lazy_noise rQ level lP 1 DQ Be F.
  Proof.
    intros Hs HK K0 F0 Hw D0 G0 Hl HlK g Hrt (h & Hh & Ho & Hgh & Hkey) HDQ HBe Hout dig. fold n in Hgh.
    pose proof (gal_ok rQ rP L HP EL k) as Hg. fold g in Hg.
    assert (NP : 0 < Z.of_nat n) by (unfold n; rewrite EL; pose proof (Nat.pow_nonzero 2 L); lia).
    destruct (odd_factors g h _ Hgh NP) as [Og Oh].
    assert (OgN : Nat.odd (Z.to_nat g) = true) by (apply Nodd_Z; assumption).
    destruct (ct_ok_repr rQ BQ L EL level0 B c K0) as [C HC]. assert (N0 := proj1 (proj2 HC)).
    pose proof (ctDegree_S c (proj1 N0)) as E0. rewrite G0 in E0.
    assert (Hl0 : (level0 < length (rmods rQ))%nat) by apply HC.
    assert (HlQ : (level < length (rmods rQ))%nat) by (clear - Hl Hl0; lia).
    assert (HlP : (lP < length (rmods rP))%nat) by apply (max_ne rP BP).
    assert (Rc : forall j, (j < 2)%nat -> rns_ntt rQ L level B (comp c j) (C j)) by (intros j Hj; destruct HC as (_ & _ & _ & HC); apply (ntt_level rQ L EL level0); [exact Hl|apply HC; lia]).
    assert (R2 : rns_ntt rQ L level canon (comp c 1) (C 1%nat)).
    { destruct (Rc 1%nat ltac:(lia)) as (A1 & A2 & A3). split; [exact A1|]. split; [exact A2|]. intros i Hi. destruct (A3 i Hi) as [A4 A5]. split; [exact A4|].
      intros j Hj. split; [|apply A5; exact Hj]. destruct Hw as [_ Hw]. apply Hw; [lia|rewrite EL; exact Hj]. }
    pose proof (proj1 (decrypts_iff rQ BQ L EL level0 B c C sk sec M HC F0 Hs) D0) as V. rewrite <- E0 in V.
    destruct (switch_lazy rQ rP L HP EL levelK level lP (comp c 1) true (C 1%nat) key poolInv ([], []) (fst (fst pool)) (snd (fst pool)) (fst (snd pool)) (snd (snd pool)) (pauto n (Z.to_nat h) sec) sec DQ Be HK HlK R2 Hkey HDQ HBe)
      as ([[x0 X0] [x1 X1]] & F & Y1 & (S0 & S1 & [Y2 Y2'] & [Y3 Y3'] & Y4) & Y5 & _).
    cbn [fst snd] in Y2, Y2', Y3, Y3'. fold n in Y4. set (P := product (prefix rP lP)) in *.
    unfold PermuteNTTHoistedNoModDown. fold lP g. rewrite Hrt. unfold dig. rewrite (hoisted_nomod rQ rP level lP (comp c 1) (fst key) (snd key) poolInv ([], []) pools). rewrite Y1.
    rewrite (big_product rQ rP HP). fold lP P.
    eexists. exists (pauto n (Z.to_nat g) F). split; [reflexivity|].
    destruct Hout as (O1 & O2 & O3 & O4).
    split; [unfold pair_rows; cbn [fst snd]; unfold PermuteNTTWithIndexLvl; rewrite !lvl_length, O1, O2, O3, O4, !Nat.max_id; repeat split|].
    split; [|apply (lazy_auto level lP 1 g h); assumption].
    exists (pauto n (Z.to_nat g) (padd S0 (pscale P (C 0%nat)))), (pauto n (Z.to_nat g) S1). cbn [fst snd].
    split; [split; cbn [fst snd]|split; [split; cbn [fst snd]|]].
    - apply (permute_ntt_index 9 rQ L level canon); [lia|exact BQ|exact EL|exact Hg|exact Og|].
      apply (n_add rQ L B2 EL level canon canon); [|exact Y2|apply (scalar_ct level B); [exact F0|apply (Rc 0%nat); lia]].
      intros i Hi. destruct (one_mod rQ BQ i ltac:(lia)). unfold canon. lia.
    - apply permute_P; [exact Hg|exact Og|]. revert Y2'. apply (ntt_peq rP L (k_ELP rQ rP L HP EL)). intros i Hi. rewrite (k_N rQ rP HP).
      intros j Hj. unfold padd. pose proof (special_zero rQ rP lP (C 0%nat) i HlP Hi j Hj) as Z0. fold P in Z0.
      etransitivity; [|apply eqm_add; [reflexivity|symmetry; exact Z0]]. apply eqm_eq. unfold pzero. ring.
    - apply (permute_ntt_index 9 rQ L level canon); [lia|exact BQ|exact EL|exact Hg|exact Og|exact Y3].
    - apply permute_P; [exact Hg|exact Og|exact Y3'].
    - intros x Hx. specialize (Y4 x Hx). fold n P.
      assert (NZ : (0 < n)%nat) by lia.
      assert (SB : peq n x (pauto n (Z.to_nat g) (pauto n (Z.to_nat h) sec)) sec).
      { rewrite pauto_comp by assumption. rewrite <- pauto_mod by assumption.
        replace ((Z.to_nat g * Z.to_nat h) mod (2 * n))%nat with 1%nat; [apply pauto_id; exact NZ|].
        apply Nat2Z.inj. rewrite Nat2Z.inj_mod, !Nat2Z.inj_mul, !Z2Nat.id by assumption. symmetry. exact Hgh. }
      transitivity (pauto n (Z.to_nat g) (padd (padd S0 (pscale P (C 0%nat))) (pmul n S1 (pauto n (Z.to_nat h) sec)))).
      { rewrite (pauto_add n _ _ (padd S0 (pscale P (C 0%nat)))), pauto_mul by assumption. apply padd_peq; [reflexivity|]. apply pmul_peq; [reflexivity|symmetry; exact SB]. }
      transitivity (pauto n (Z.to_nat g) (padd (pscale P M) F)); [|rewrite pauto_add; apply padd_peq; [apply pauto_scale|reflexivity]].
      apply pauto_peq.
      transitivity (padd (pscale P (C 0%nat)) (padd S0 (pmul n S1 (pauto n (Z.to_nat h) sec)))); [intros j Hj; apply eqm_eq; unfold padd; ring|].
      transitivity (padd (pscale P (C 0%nat)) (padd (pscale P (pmul n (C 1%nat) sec)) F)); [apply padd_peq; [reflexivity|exact Y4]|].
      transitivity (padd (pscale P (padd (C 0%nat) (pmul n (C 1%nat) sec))) F); [intros j Hj; apply eqm_eq; unfold padd, pscale; ring|].
      apply padd_peq; [|reflexivity]. apply in_app_or in Hx. destruct Hx as [Hx|Hx].
      + destruct (prefix_in rQ level x HlQ Hx) as (i & Hi & ->). apply pscale_peq. specialize (V i ltac:(lia)). fold n in V. rewrite dval_2 in V. exact V.
      + destruct (prefix_in rP lP x HlP Hx) as (i & Hi & ->). etransitivity; [apply (special_zero rQ rP lP _ i HlP Hi)|symmetry; apply (special_zero rQ rP lP _ i HlP Hi)].
  Qed.

  (** A list of rotations. *)
  Lemma rotations_lazy levelK level0 level B rtks ks c poolInv pools sk sec M DQ Be :
    secret rQ L sk sec -> key_levels rQ rP levelK lP ->
    ct_ok rQ level0 B c -> fits rQ B -> words rQ level0 canon (comp c 1) -> decrypts rQ L sk c M ->
    ctDegree c = 1%nat -> (level <= level0)%nat -> (level <= levelK)%nat ->
    blocks_below rQ level lP DQ -> 0 <= Be ->
    (forall k, In k ks -> k <> 0 -> let g := GaloisElementForColumnRotationBy rQ k in exists key, rtks g = Some key /\ rotation_key rQ rP L levelK lP g key sec Be) ->
    let dig := DecomposeNTT rQ rP level lP (lP + 1) (comp c 1) true poolInv pools in
    forall buffers, exists outs, RotateHoistedNoModDownNew rQ rP level rtks ks (comp c 0) dig buffers = Some outs /\
      map fst outs = filter (fun k => negb (k =? 0)) ks /\
      forall k x, In (k, x) outs -> exists F, pair_rows level lP x /\
        lazy_ct rQ rP L level lP x sec (pauto n (Z.to_nat (GaloisElementForColumnRotationBy rQ k)) M) F /\ lazy_noise rQ level lP 1 DQ Be F.
  Proof.
    intros Hs HK K0 F0 Hw D0 G0 Hl HlK HDQ HBe Hks dig. induction ks as [|k ks IH]; intros buffers.
    { exists []. split; [reflexivity|]. split; [reflexivity|]. intros k x []. }
    cbn [RotateHoistedNoModDownNew filter]. assert (Hks' : forall k, In k ks -> k <> 0 -> let g := GaloisElementForColumnRotationBy rQ k in exists key, rtks g = Some key /\ rotation_key rQ rP L levelK lP g key sec Be) by (intros k' Hk'; apply Hks; right; exact Hk').
    destruct (IH Hks' (fun j => buffers (S j))) as (outs & H1 & H2 & H3). destruct (Z.eqb_spec k 0) as [E|E]; cbn [negb].
    - exists outs. split; [exact H1|]. split; [exact H2|exact H3].
    - destruct (Hks k (or_introl eq_refl) E) as (key & Hrt & Hrk).
      destruct (rotation_lazy levelK level0 level B rtks key k c (buffers 0%nat) (new_pair rQ rP level) poolInv pools sk sec M DQ Be Hs HK K0 F0 Hw D0 G0 Hl HlK Hrt Hrk HDQ HBe) as (x & F & X1 & X2 & X3 & X4).
      { unfold pair_rows, new_pair, zero_rows. cbn [fst snd]. rewrite !repeat_length. unfold lP, maxLevel. pose proof (max_ne rP BP) as M1. unfold maxLevel in M1. lia. }
      fold dig in X1. rewrite X1, H1. exists ((k, x) :: outs). split; [reflexivity|]. split; [cbn [map fst]; rewrite H2; reflexivity|].
      intros k' x' [E'|Hin]; [|apply H3; exact Hin]. injection E' as <- <-. exists F. split; [exact X2|]. split; [exact X3|exact X4].
  Qed.

  Lemma rotations_missing level rtks ks c0 dig k : In k ks -> k <> 0 -> rtks (GaloisElementForColumnRotationBy rQ k) = None ->
    forall buffers, RotateHoistedNoModDownNew rQ rP level rtks ks c0 dig buffers = None.
  Proof.
    intros Hin Hk Hm. induction ks as [|x ks IH]; intros buffers; [destruct Hin|]. cbn [RotateHoistedNoModDownNew].
    destruct Hin as [-> |Hin].
    - destruct (Z.eqb_spec k 0); [contradiction|]. unfold PermuteNTTHoistedNoModDown. rewrite Hm. reflexivity.
    - destruct (x =? 0); [apply IH; exact Hin|]. destruct (PermuteNTTHoistedNoModDown _ _ _ _ _ _ _ _ _); [|reflexivity]. rewrite IH by exact Hin. reflexivity.
  Qed.

  (** Sums. *)
  Lemma qp_add_ok level x y X Y : (level < length (rmods rQ))%nat -> qp_ntt rQ rP L level lP canon x X -> qp_ntt rQ rP L level lP canon y Y ->
    qp_ntt rQ rP L level lP canon (qp_add rQ rP level x y) (padd X Y).
  Proof.
    intros Hl [A1 A2] [C1 C2]. split; cbn [qp_add fst snd].
    - apply (n_add rQ L B2 EL level canon canon); [|exact A1|exact C1]. intros i Hi. destruct (one_mod rQ BQ i ltac:(lia)). unfold canon. lia.
    - pose proof (max_ne rP BP) as M1. apply (n_add rP L (one_2 rP BP) (k_ELP rQ rP L HP EL) lP canon canon); [|exact A2|exact C2]. intros i Hi. destruct (one_mod rP BP i ltac:(unfold lP in Hi; lia)). unfold canon. lia.
  Qed.
  Lemma lazy_add level x y s M M' F F' : (level < length (rmods rQ))%nat -> lazy_ct rQ rP L level lP x s M F -> lazy_ct rQ rP L level lP y s M' F' ->
    lazy_ct rQ rP L level lP (pair_add rQ rP level x y) s (padd M M') (padd F F').
  Proof.
    intros Hl (C0 & C1 & A1 & A2 & A3) (C0' & C1' & A1' & A2' & A3'). exists (padd C0 C0'), (padd C1 C1').
    split; [apply qp_add_ok; assumption|]. split; [apply qp_add_ok; assumption|].
    intros p Hp. specialize (A3 p Hp). specialize (A3' p Hp). fold n in A3, A3' |- *. set (P := product (prefix rP lP)) in *.
    transitivity (padd (padd C0 (pmul n C1 s)) (padd C0' (pmul n C1' s))).
    { transitivity (padd (padd C0 C0') (padd (pmul n C1 s) (pmul n C1' s))); [|intros k Hk; apply eqm_eq; unfold padd; ring].
      apply padd_peq; [reflexivity|]. apply pmul_add_l. }
    transitivity (padd (padd (pscale P M) F) (padd (pscale P M') F')); [apply padd_peq; assumption|]. intros k Hk. apply eqm_eq. unfold padd, pscale. ring.
  Qed.
  Lemma noise_add level a b DQ Be F F' : lazy_noise rQ level lP a DQ Be F -> lazy_noise rQ level lP b DQ Be F' -> lazy_noise rQ level lP (a + b) DQ Be (padd F F').
  Proof.
    intros H H' k Hk. specialize (H k Hk). specialize (H' k Hk). rewrite Nat2Z.inj_add. unfold padd.
    set (u := Z.of_nat (ceil_div (level + 1) (lP + 1)) * (Z.of_nat (rN rQ) * (DQ * Be))) in *. clearbody u.
    set (A := Z.of_nat a) in *. set (B := Z.of_nat b) in *. clearbody A B. replace ((A + B) * u) with (A * u + B * u) by ring.
    generalize dependent (A * u). generalize dependent (B * u). intros. pose proof (Z.abs_triangle (F k) (F' k)). lia.
  Qed.
  Lemma rows_add level x y : pair_rows level lP x -> pair_rows level lP (pair_add rQ rP level x y).
  Proof.
    intros (A1 & A2 & A3 & A4). unfold pair_rows, pair_add, qp_add. cbn [fst snd]. fold lP. unfold AddLvl, op2. rewrite !lvl_length, A1, A2, A3, A4, !Nat.max_id. repeat split.
  Qed.

  (** One division by P. *)
  Lemma down_lazy level x sk sec M F BF Bs sc : (lP < 18)%nat -> (level < length (rmods rQ))%nat -> secret rQ L sk sec -> 0 <= Bs -> pbound n Bs sec ->
    pair_rows level lP x -> lazy_ct rQ rP L level lP x sec M F -> (forall k, (k < n)%nat -> 2 ^ 42 * Z.abs (F k) <= BF) ->
    let '(o0, o1) := pair_down rQ rP level x in
    ct_ok rQ level canon (mkCt [o0; o1] sc true) /\
    exists E, decrypts rQ L sk (mkCt [o0; o1] sc true) (padd M E) /\
      forall k, (k < n)%nat -> 2 ^ 42 * (product (prefix rP lP) * Z.abs (E k)) <= BF + (2 ^ 42 + 1) * (product (prefix rP lP) * (1 + Z.of_nat n * Bs)).
  Proof.
    intros H18 Hl Hs HBs Hb (O1 & O2 & _ & _) (C0 & C1 & [A1 A2] & [A3 A4] & A5) HF.
    assert (HlP : (lP < length (rmods rP))%nat) by apply (max_ne rP BP).
    unfold pair_down. fold lP. set (o0 := ModDownQPtoQNTT _ _ _ (fst (fst x)) _ _). set (o1 := ModDownQPtoQNTT _ _ _ (fst (snd x)) _ _).
    destruct (down_ntt rQ rP L HP EL level lP Hl HlP H18 (fst (fst x)) (snd (fst x)) (fst (fst x)) C0 A1 A2) as (D0 & U1 & U2 & U3).
    destruct (down_ntt rQ rP L HP EL level lP Hl HlP H18 (fst (snd x)) (snd (snd x)) (fst (snd x)) C1 A3 A4) as (D1 & V1 & V2 & V3).
    fold o0 in U1, U2. fold o1 in V1, V2.
    assert (HR : ct_repr rQ L level canon (mkCt [o0; o1] sc true) (fun j => nth j [D0; D1] pzero)).
    { split; [exact Hl|]. split; [cbn [ctV length]; lia|]. split; [reflexivity|].
      intros [|[|j]] Hj; unfold comp; cbn [ctV nth]; [| |cbn [ctV length] in Hj; lia].
      - split; [rewrite (proj1 U2), O1; lia|exact U1].
      - split; [rewrite (proj1 V2), O2; lia|exact V1]. }
    split; [apply (ct_repr_ok rQ L EL) in HR; exact HR|].
    destruct (divide_phase n level (prefix rQ level) (prefix rP lP) C0 C1 sec M F D0 D1 BF Bs) as (E & E1 & E2).
    - intros p Hp. apply (sw_prime rP _ BP). apply firstn_in' in Hp. exact Hp.
    - apply nodup_firstn, moduli_nodup. exact BP.
    - intros p Hp. apply (sw_prime rQ _ BQ). apply firstn_in' in Hp. exact Hp.
    - intros p Hp Hp'. destruct (proj2 (proj2 (proj2 HP))) with p; [apply firstn_in' in Hp; exact Hp|apply firstn_in' in Hp'; exact Hp'].
    - rewrite prefix_length by exact Hl. lia.
    - exact A5.
    - exact U3.
    - exact V3.
    - exact HBs.
    - exact Hb.
    - exact HF.
    - exists E. split; [|exact E2].
      apply (decrypts_iff rQ BQ L EL level canon _ _ sk sec _ HR (fits_canon rQ BQ L EL) Hs). intros i Hi. cbn [ctV length]. fold n. rewrite dval_2. cbn [nth].
      specialize (E1 i Hi). rewrite prefix_nth in E1 by lia. exact E1.
  Qed.

  Definition total (level : nat) (x : qp_pair) (outs : list (Z * qp_pair)) : qp_pair := fold_left (fun acc y => pair_add rQ rP level acc (snd y)) outs x.
  Lemma total_lazy level s M DQ Be : (level < length (rmods rQ))%nat -> forall outs,
    (forall k x, In (k, x) outs -> exists F, pair_rows level lP x /\
        lazy_ct rQ rP L level lP x s (pauto n (Z.to_nat (GaloisElementForColumnRotationBy rQ k)) M) F /\ lazy_noise rQ level lP 1 DQ Be F) ->
    forall x c M0 F0, pair_rows level lP x -> lazy_ct rQ rP L level lP x s M0 F0 -> lazy_noise rQ level lP c DQ Be F0 ->
    exists M1 F, pair_rows level lP (total level x outs) /\ lazy_ct rQ rP L level lP (total level x outs) s M1 F /\ lazy_noise rQ level lP (c + length outs) DQ Be F /\
      forall k, M1 k = M0 k + rotations_sum rQ (map fst outs) M k.
  Proof.
    intros Hl. induction outs as [|[k y] outs IH]; intros Ho x c M0 F0 H1 H2 H3.
    - exists M0, F0. cbn [total fold_left length map rotations_sum fold_right]. rewrite Nat.add_0_r. split; [exact H1|]. split; [exact H2|]. split; [exact H3|]. intros i. unfold pzero. ring.
    - destruct (Ho k y (or_introl eq_refl)) as (F & Y1 & Y2 & Y3).
      destruct (IH (fun k' y' Hin => Ho k' y' (or_intror Hin)) (pair_add rQ rP level x y) (c + 1)%nat _ _ (rows_add level x y H1) (lazy_add level x y s _ _ _ _ Hl H2 Y2) (noise_add level c 1 DQ Be _ _ H3 Y3)) as (M1 & F1 & Z1 & Z2 & Z3 & Z4).
      exists M1, F1. split; [exact Z1|]. split; [exact Z2|]. cbn [length]. replace (c + S (length outs))%nat with (c + 1 + length outs)%nat by lia. split; [exact Z3|].
      intros i. rewrite Z4. cbn [map fst rotations_sum fold_right]. fold (rotations_sum rQ (map fst outs) M). unfold padd. fold n. ring.
  Qed.

  Lemma rotate_and_sum levelK level0 level B rtks ks c poolInv pools buffers sk sec M DQ Be Bs :
    secret rQ L sk sec -> key_levels rQ rP levelK lP ->
    ct_ok rQ level0 B c -> fits rQ B -> words rQ level0 canon (comp c 1) -> decrypts rQ L sk c M ->
    ctDegree c = 1%nat -> (level <= level0)%nat -> (level <= levelK)%nat ->
    blocks_below rQ level lP DQ -> 0 <= Be -> 0 <= Bs -> pbound n Bs sec -> ks <> [] -> NoDup ks ->
    (forall k, In k ks -> k <> 0 /\ let g := GaloisElementForColumnRotationBy rQ k in exists key, rtks g = Some key /\ rotation_key rQ rP L levelK lP g key sec Be) ->
    let dig := DecomposeNTT rQ rP level lP (lP + 1) (comp c 1) true poolInv pools in
    exists k0 x0 outs E, RotateHoistedNoModDownNew rQ rP level rtks ks (comp c 0) dig buffers = Some ((k0, x0) :: outs) /\
      let '(o0, o1) := pair_down rQ rP level (fold_left (fun acc y => pair_add rQ rP level acc (snd y)) outs x0) in
      ct_ok rQ level canon (mkCt [o0; o1] (ctScale c) true) /\
      decrypts rQ L sk (mkCt [o0; o1] (ctScale c) true) (padd (rotations_sum rQ ks M) E) /\
      summed_noise rQ rP level lP (length ks) DQ Be Bs E.
  Proof.
    intros Hs HK K0 F0 Hw D0 G0 Hl HlK HDQ HBe HBs Hb Hne _ Hks dig.
    destruct (rotations_lazy levelK level0 level B rtks ks c poolInv pools sk sec M DQ Be Hs HK K0 F0 Hw D0 G0 Hl HlK HDQ HBe) with (buffers := buffers) as (outs & X1 & X2 & X3).
    { intros k Hk _. apply (Hks k Hk). }
    assert (EF : filter (fun k => negb (k =? 0)) ks = ks).
    { clear - Hks. induction ks as [|k ks IH]; [reflexivity|]. cbn [filter]. destruct (Hks k (or_introl eq_refl)) as [H _]. apply Z.eqb_neq in H. rewrite H. cbn [negb]. f_equal. apply IH. intros x Hx. apply Hks. right. exact Hx. }
    rewrite EF in X2. destruct outs as [|[k0 x0] outs]; [destruct ks; [contradiction|discriminate X2]|].
    destruct (X3 k0 x0 (or_introl eq_refl)) as (Fx & Y1 & Y2 & Y3).
    assert (HlQ : (level < length (rmods rQ))%nat) by (destruct K0 as [K0 _]; clear - K0 Hl; lia).
    destruct (total_lazy level sec M DQ Be HlQ outs (fun k x Hin => X3 k x (or_intror Hin)) x0 1%nat _ _ Y1 Y2 Y3) as (M1 & F1 & Z1 & Z2 & Z3 & Z4).
    assert (LK : length ks = (1 + length outs)%nat) by (rewrite <- X2; cbn [map length]; rewrite map_length; reflexivity).
    rewrite <- LK in Z3.
    assert (Z2' : lazy_ct rQ rP L level lP (total level x0 outs) sec (rotations_sum rQ ks M) F1).
    { destruct Z2 as (C0 & C1 & A1 & A2 & A3). exists C0, C1. split; [exact A1|]. split; [exact A2|]. intros p Hp. etransitivity; [apply A3; exact Hp|].
      apply padd_peq; [|reflexivity]. apply pscale_peq. apply peq_exact. intros i Hi. rewrite Z4, <- X2. cbn [map fst rotations_sum fold_right]. reflexivity. }
    pose proof (down_lazy level (total level x0 outs) sk sec (rotations_sum rQ ks M) F1 _ Bs (ctScale c) (proj2 (proj2 HK)) HlQ Hs HBs Hb Z1 Z2' Z3) as D.
    fold (total level x0 outs). destruct (pair_down rQ rP level (total level x0 outs)) as [o0 o1] eqn:ED. destruct D as (D1 & E & D2 & D3).
    exists k0, x0, outs, E. split; [exact X1|]. fold (total level x0 outs). rewrite ED. split; [exact D1|]. split; [exact D2|].
    intros k Hk. specialize (D3 k Hk). etransitivity; [exact D3|]. fold n. apply Z.eq_le_incl. ring.
  Qed.
End Top.
