(** Multiplication and addition of constants, from the constants themselves. *)
From Coq Require Import Reals Lra.
From Flocq Require Import Core IEEE754.BinarySingleNaN.
From Verif Require Import Word Arith PolySpec PolyProofs Ring RingProofs NTT RingOps RNSSpec RowProofs OpsProofs OpsProps Repr RlweSpec GadgetSpec Gadget Frlwe Rlwe RlweKeys Float64 FloatProofs ScalingMore Ckks CkksSpec CkksBase CkksConst CkksOps CkksFloat CkksAdd CkksAddC.
Open Scope Z_scope.

Lemma near_scaled x s : in_range x s -> is_finite s = true -> (0 <= B2R s)%R -> near_product x s (scaled x s).
Proof.
  intros [F R] Fs P. unfold near_product. pose proof (scaled_accuracy x s F Fs P R) as H.
  replace (/ 2 ^ 51)%R with (bpow radix2 (-51)); [exact H|]. change (bpow radix2 (-51)) with (/ IZR (2 ^ 51))%R. f_equal. change (2 ^ 51)%Z with (2 ^ Z.of_nat 51)%Z. symmetry. apply (pow_IZR 2 51).
Qed.

Lemma scaled_zero s : scaled f64_zero s = 0.
Proof. reflexivity. Qed.

Section Const.
  Variable rQ : Ring.
  Hypothesis BQ : built_ring 9 rQ.
  Variable L : nat.
  Hypothesis EL : rN rQ = (2 ^ L)%nat.
  Notation n := (rN rQ).

  Lemma modulus_float i : (i < length (rmods rQ))%nat -> is_finite (f64_of_Z (mq (rmod rQ i))) = true /\ (1 <= B2R (f64_of_Z (mq (rmod rQ i))))%R.
  Proof.
    intros Hi. pose proof (fits_canon rQ BQ L EL i Hi) as [H1 H2]. unfold canon in *. destruct (one_mod rQ BQ i Hi) as [Hq _].
    destruct (of_Z_correct (mq (rmod rQ i))) as [E F]; [unfold W in H2; lia|]. split; [exact F|]. rewrite E.
    rewrite <- (rnd_Z 1) by (vm_compute; discriminate). apply rnd_le. apply IZR_le. lia.
  Qed.

  Lemma parts_of level k : exists scale, getConstAndScale rQ level k = (fst (const_parts k), snd (const_parts k), scale) /\
    (scale = f64_of_Z 1 \/ scale = f64_of_Z (mq (rmod rQ level))) /\
    forall a b, float_int (fst (const_parts k)) a -> float_int (snd (const_parts k)) b -> Z.abs a < 2 ^ 53 -> Z.abs b < 2 ^ 53 -> scale = f64_of_Z 1.
  Proof.
    destruct k as [re im|x|x]; cbn [const_parts fst snd]; unfold getConstAndScale; eexists; (split; [reflexivity|]).
    - split; [destruct (_ || _); [right|left]; reflexivity|]. intros a b Ha Hb La Lb. rewrite (needs_scale_int re a Ha La), (needs_scale_int im b Hb Lb). reflexivity.
    - split; [destruct (needs_scale _); [right|left]; reflexivity|]. intros a b Ha Hb La Lb. rewrite (needs_scale_int x a Ha La). reflexivity.
    - split; [left; reflexivity|]. reflexivity.
  Qed.

  Lemma range_one x level : (level < length (rmods rQ))%nat -> in_range x (f64_of_Z (mq (rmod rQ level))) -> in_range x (f64_of_Z 1).
  Proof.
    intros Hl [F R]. split; [exact F|]. destruct (modulus_float level Hl) as [_ P]. destruct one_int as [_ ->]. rewrite Rmult_1_r.
    apply Rle_trans with (2 := R). rewrite Rabs_mult, (Rabs_pos_eq (B2R (f64_of_Z _))) by lra. pose proof (Rabs_pos (B2R x)) as A. nra.
  Qed.

  Lemma mult_const_any level level' B c k out sk s M : secret rQ L sk s -> ct_ok rQ level B c -> fits rQ B -> decrypts rQ L sk c M ->
    shaped (ctDegree c) level' out -> (level' <= level)%nat ->
    let '(re, im) := const_parts k in let q := f64_of_Z (mq (rmod rQ level')) in
    in_range re q -> in_range im q ->
    exists sigma a b, (sigma = f64_of_Z 1 \/ sigma = q) /\ near_product re sigma a /\ near_product im sigma b /\
      (forall x y, float_int re x -> float_int im y -> Z.abs x < 2 ^ 52 -> Z.abs y < 2 ^ 52 -> sigma = f64_of_Z 1 /\ a = x /\ b = y) /\
      ct_ok rQ level' canon (MultByConst rQ c k out) /\ ctScale (MultByConst rQ c k out) = f64_mul (ctScale c) sigma /\
      decrypts rQ L sk (MultByConst rQ c k out) (pmul n (pgauss n a b) M).
  Proof.
    intros Hs Hc HB HD HS Hl. pose proof (mult_by_const rQ BQ L EL level level' B c k out sk s M Hs Hc HB HD HS Hl) as H.
    pose proof (ct_ok_level rQ L EL level B c Hc) as El. pose proof (shaped_level _ _ _ HS) as El'.
    assert (Hlev : (level' < length (rmods rQ))%nat) by (destruct Hc as [Hc _]; lia).
    destruct (parts_of level' k) as (sigma & E & Hsg & Hone). rewrite E in H.
    assert (ES : ctScale (MultByConst rQ c k out) = f64_mul (ctScale c) sigma).
    { unfold MultByConst. rewrite El, El', Nat.min_r by exact Hl. rewrite E. reflexivity. }
    destruct (const_parts k) as [re im]. cbn [fst snd] in *. cbv zeta. intros R1 R2. destruct H as [H1 H2].
    exists sigma, (scaled re sigma), (scaled im sigma). split; [exact Hsg|].
    destruct (modulus_float level' Hlev) as [Fq Pq].
    assert (N : forall x, in_range x (f64_of_Z (mq (rmod rQ level'))) -> near_product x sigma (scaled x sigma)).
    { intros x Hx. destruct Hsg as [-> | ->].
      - apply near_scaled; [exact (range_one x level' Hlev Hx)|apply one_int|]. destruct one_int as [_ ->]. lra.
      - apply near_scaled; [exact Hx|exact Fq|lra]. }
    split; [exact (N re R1)|]. split; [exact (N im R2)|]. split.
    - intros x y Hx Hy Lx Ly. assert (E1 : sigma = f64_of_Z 1).
      { apply (Hone x y Hx Hy); [apply Z.lt_trans with (2 ^ 52); [exact Lx|reflexivity]|apply Z.lt_trans with (2 ^ 52); [exact Ly|reflexivity]]. }
      rewrite E1. split; [reflexivity|]. split; apply scaled_int; assumption.
    - split; [exact H1|]. split; [exact ES|exact H2].
  Qed.


  (** Integers. *)
  Lemma mult_const_int level level' B c k out sk s M : secret rQ L sk s -> ct_ok rQ level B c -> fits rQ B -> decrypts rQ L sk c M ->
    shaped (ctDegree c) level' out -> (level' <= level)%nat -> Z.abs k < 2 ^ 52 -> is_finite (ctScale c) = true ->
    ct_ok rQ level' canon (MultByConst rQ c (CInt k) out) /\ ctScale (MultByConst rQ c (CInt k) out) = ctScale c /\
    decrypts rQ L sk (MultByConst rQ c (CInt k) out) (pscale k M).
  Proof.
    intros Hs Hc HB HD HS Hl Hk Fs. pose proof (mult_by_const rQ BQ L EL level level' B c (CInt k) out sk s M Hs Hc HB HD HS Hl) as H.
    cbn [getConstAndScale] in H. cbv zeta in H. destruct H as [H1 H2]. split; [exact H1|]. split.
    - unfold MultByConst. cbn [getConstAndScale ctScale]. apply mul_one. exact Fs.
    - rewrite (scaled_int _ k) in H2 by (first [exact Hk|apply of_Z_int; apply Z.lt_le_incl, Z.lt_trans with (2 ^ 52); [exact Hk|reflexivity]]).
      rewrite scaled_zero in H2. destruct (ct_ok_repr rQ BQ L EL level' canon _ H1) as [C HC].
      apply (ct_repr_peq rQ BQ L EL level' canon _ C sk s _ _ HC (fits_canon rQ BQ L EL) Hs H2). intros i Hi. apply gauss_scale.
  Qed.

  (** In-place addition. *)
  Lemma add_const_any level B c k sk s M : secret rQ L sk s -> ct_ok rQ level B c -> fits rQ B -> decrypts rQ L sk c M ->
    is_finite (ctScale c) = true -> (0 <= B2R (ctScale c))%R -> in_range (fst (const_parts k)) (ctScale c) -> in_range (snd (const_parts k)) (ctScale c) ->
    exists a b, near_product (fst (const_parts k)) (ctScale c) a /\ near_product (snd (const_parts k)) (ctScale c) b /\
      ct_ok rQ level B (AddConst rQ c k c) /\ ctDegree (AddConst rQ c k c) = ctDegree c /\ ctScale (AddConst rQ c k c) = ctScale c /\
      decrypts rQ L sk (AddConst rQ c k c) (padd M (pgauss n a b)).
  Proof.
    intros Hs Hc HB HD Fs Ps R1 R2. pose proof (add_const_correct rQ BQ L EL level B c k sk s M Hs Hc HB HD) as H.
    destruct (parts_of level k) as (sigma & E & _). rewrite E in H. exists (scaled (fst (const_parts k)) (ctScale c)), (scaled (snd (const_parts k)) (ctScale c)).
    split; [apply near_scaled; assumption|]. split; [apply near_scaled; assumption|]. exact H.
  Qed.
End Const.

(** ** Results of MulRelin as operands *)
Lemma lt_irrefl x : f64_lt x x = false.
Proof.
  unfold f64_lt, Bltb, SpecFloat.SFltb, SpecFloat.SFcompare. destruct (B2SF x) as [s|[]| |s m e]; try reflexivity; try (destruct s; reflexivity).
  assert (Z.compare e e = Eq) as -> by apply Z.compare_refl. assert (Pos.compare_cont Eq m m = Eq) as -> by apply Pos.compare_refl. destruct s; reflexivity.
Qed.
Lemma match_same x : match_factor x x = 1.
Proof. unfold match_factor. rewrite lt_irrefl. reflexivity. Qed.

Lemma shaped_self rQ level B c : ct_ok rQ level B c -> shaped (ctDegree c) level c.
Proof.
  intros (_ & H2 & H3 & H4). split; [unfold ctDegree; lia|]. split; [exact H3|]. intros j Hj. apply H4. unfold ctDegree in Hj. lia.
Qed.

Lemma lazy_reduce : forall rQ, built_ring 9 rQ -> forall L, rN rQ = (2 ^ L)%nat -> forall level c sk s M,
  secret rQ L sk s -> ct_ok rQ level lazy c -> decrypts rQ L sk c M -> is_finite (ctScale c) = true ->
  let c' := MultByConst rQ c (CInt 1) c in ct_ok rQ level canon c' /\ ctScale c' = ctScale c /\ decrypts rQ L sk c' M.
Proof.
  intros rQ BQ L EL level c sk s M Hs Hc HD Fs c'.
  destruct (mult_const_int rQ BQ L EL level level lazy c 1 c sk s M Hs Hc (fits_lazy rQ BQ L EL) HD (shaped_self _ _ _ _ Hc) (le_n _) ltac:(reflexivity) Fs) as (H1 & H2 & H3).
  split; [exact H1|]. split; [exact H2|]. destruct (ct_ok_repr rQ BQ L EL level canon _ H1) as [C HC].
  apply (ct_repr_peq rQ BQ L EL level canon _ C sk s _ _ HC (fits_canon rQ BQ L EL) Hs H3). intros i Hi k Hk. unfold pscale. apply eqm_eq. ring.
Qed.

Lemma lazy_sum : forall rQ, built_ring 12 rQ -> forall L, rN rQ = (2 ^ L)%nat -> forall level c0 c1 out pool sk s M0 M1,
  secret rQ L sk s -> ct_ok rQ level lazy c0 -> ct_ok rQ level lazy c1 -> decrypts rQ L sk c0 M0 -> decrypts rQ L sk c1 M1 ->
  ctDegree c0 = 1%nat -> ctDegree c1 = 1%nat -> ctScale c0 = ctScale c1 -> shaped 1 level out -> shaped 2 level pool ->
  exists c, Add rQ c0 c1 out pool = Some c /\ ct_ok rQ level (fun q => 11 * q) c /\ ctDegree c = 1%nat /\ decrypts rQ L sk c (padd M0 M1).
Proof.
  intros rQ BQ L EL level c0 c1 out pool sk s M0 M1 Hs K0 K1 D0 D1 G0 G1 ES HO HP.
    assert (B9 : built_ring 9 rQ) by (apply (built_less 12 9); [lia|exact BQ]).
  pose proof (fits_lazy rQ B9 L EL) as FL.
  assert (F11 : fits rQ (fun q => lazy q + lazy q - q)).
  { intros i Hi. destruct (built_mod 12 rQ i ltac:(lia) BQ Hi) as (Q5 & Q12 & _). unfold lazy. lia. }
  assert (EP : ctDegree pool = 2%nat) by (unfold ctDegree; rewrite (proj1 HP); reflexivity).
  destruct (CkksAdd.add_correct rQ B9 L EL level level level 1 lazy lazy c0 c1 out pool sk s M0 M1 Hs K0 K1 FL FL F11 D0 D1) as (c & E & Hc & Hd & _ & D); try (rewrite ?G0, ?G1, ?EP; lia).
  - exact HO.
  - rewrite (shaped_level _ _ _ HP). lia.
  - rewrite ES, match_same. split; [lia|reflexivity].
  - rewrite ES, match_same. split; [lia|reflexivity].
  - rewrite !Nat.min_id in Hc. rewrite ES, match_same in D.
    assert (Hc' : ct_ok rQ level (fun q => 11 * q) c).
    { destruct Hc as (A1 & A2 & A3 & A4). split; [exact A1|]. split; [exact A2|]. split; [exact A3|]. intros j Hj. destruct (A4 j Hj) as [A5 [A6 A7]]. split; [exact A5|].
      split; [exact A6|]. intros i Hi. destruct (A7 i Hi) as [A8 A9]. split; [exact A8|]. intros k Hk. specialize (A9 k Hk). cbv beta in *. unfold lazy in A9. lia. }
    exists c. split; [exact E|]. split; [exact Hc'|]. split; [rewrite Hd, G0, G1; reflexivity|].
    destruct (ct_ok_repr rQ B9 L EL level _ c Hc) as [C HC]. apply (ct_repr_peq rQ B9 L EL level _ c C sk s _ _ HC F11 Hs D). intros i Hi k Hk.
    unfold padd, pscale. apply eqm_eq. ring.
Qed.
