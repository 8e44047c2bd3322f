(** Proofs about CkksMore.v: constants added, scales, unreduced sums, hoisted rotations. *)
From Coq Require Import Reals Lra.
From Flocq Require Import Core Plus_error IEEE754.BinarySingleNaN.
From Verif Require Import Word ModRed Arith Fermat ModRedProofs PolySpec PolyProofs Ring RingProofs NTT NTTProofs RingOps RNSSpec RowProofs OpsProofs OpsProps NTTProps Repr BasisExt CRT BasisProofs BasisProps Automorphism AutoProps Scaling Gadget GadgetSpec GadgetProofs Frlwe FrlweSetup FrlweProps FrlweSwitch RlweSpec Rlwe RlweBase RlweKeys RlweSwitch RlweEnc RlweTop RlweGen Float64 FloatProofs ScalingMore ScalingSpec Ckks CkksSpec CkksBase CkksConst CkksOps CkksFloat CkksAdd CkksMul CkksRescale CkksRot CkksTop CkksMore CkksMoreSpec CkksMoreProofs.
Open Scope Z_scope.

(** ** A number that is not an integer needs a scale. *)
Lemma large_integer (x : float64) : is_finite x = true -> (IZR (2 ^ 52) <= Rabs (B2R x))%R -> exists k, B2R x = IZR k.
Proof.
  intros F H. pose proof (generic_format_B2R prec64 emax64 x) as G. unfold generic_format in G.
  set (e := cexp radix2 (SpecFloat.fexp prec64 emax64) (B2R x)) in *.
  assert (He : (0 <= e)%Z).
  { unfold e, cexp, SpecFloat.fexp. change (IZR (2 ^ 52)) with (bpow radix2 52) in H. apply (mag_ge_bpow radix2 _ 53) in H. generalize dependent (mag_val radix2 _ (mag radix2 (B2R x))). intros m Hm. change prec64 with 53%Z. lia. }
  exists (Ztrunc (scaled_mantissa radix2 (SpecFloat.fexp prec64 emax64) (B2R x)) * 2 ^ e)%Z. rewrite G at 1. unfold F2R. cbn [Fnum Fexp]. fold e. rewrite mult_IZR. f_equal. symmetry. apply (IZR_Zpower radix2). exact He.
Qed.
Lemma needs_scale_frac (x : float64) : is_finite x = true -> (forall k, B2R x <> IZR k) -> needs_scale x = true.
Proof.
  intros F N. destruct (Rle_or_lt (IZR (2 ^ 52)) (Rabs (B2R x))) as [H|H]; [destruct (large_integer x F H) as [k E]; destruct (N k E)|].
  unfold needs_scale. rewrite (eq_zero x F). rewrite Req_bool_false by (apply (N 0%Z)). cbn [negb andb].
  assert (E : f64_trunc x = Ztrunc (B2R x)).
  { unfold f64_trunc. apply eq_IZR. rewrite (Btrunc_correct prec64 emax64 prec64_lt_emax). apply round_FIX0; apply _. }
  assert (B : (Z.abs (f64_trunc x) <= 2 ^ 52)%Z).
  { rewrite E. apply le_IZR. rewrite abs_IZR. apply Rle_trans with (Rabs (B2R x)); [|lra]. rewrite <- abs_IZR, <- Ztrunc_abs. rewrite Ztrunc_floor by apply Rabs_pos. apply Zfloor_lb. }
  destruct (of_Z_int (f64_trunc x)) as [F2 E2]; [apply Z.le_trans with (1 := B); discriminate|].
  destruct (CkksFloat.sub_correct x (f64_of_Z (f64_trunc x)) F F2) as [E3 F3].
  { rewrite E2. apply Rle_trans with (Rabs (B2R x) + Rabs (IZR (f64_trunc x)))%R; [unfold Rminus; rewrite <- (Rabs_Ropp (IZR (f64_trunc x))); apply Rabs_triang|].
    rewrite <- abs_IZR. apply IZR_le in B. apply Rle_trans with (IZR (2 ^ 52) + IZR (2 ^ 52))%R; [lra|]. rewrite <- plus_IZR. apply IZR_le. discriminate. }
  rewrite (eq_zero _ F3), E3. rewrite Req_bool_false; [reflexivity|].
  unfold Rminus. apply round_plus_neq_0; try apply _.
  - apply generic_format_B2R.
  - apply generic_format_opp, generic_format_B2R.
  - rewrite E2. intros H0. apply (N (f64_trunc x)). lra.
Qed.

Section Top.
  Variables (rQ : Ring).
  Hypothesis (BQ : built_ring 9 rQ).
  Variables (L : nat).
  Hypothesis (EL : rN rQ = (2 ^ L)%nat).
  Notation n := (rN rQ).

  Lemma mult_float_int level B c f sk s M : secret rQ L sk s -> ct_ok rQ level B c -> fits rQ B -> decrypts rQ L sk c M ->
    float_int f (f64_trunc f) -> Z.abs (f64_trunc f) < 2 ^ 52 ->
    let c' := MultByConst rQ c (CFloat f) c in ct_ok rQ level canon c' /\ ctDegree c' = ctDegree c /\ decrypts rQ L sk c' (pscale (f64_trunc f) M).
  Proof.
    intros Hs Hc HB HD Hf Hk c'. pose proof (mult_by_const rQ BQ L EL level level B c (CFloat f) c sk s M Hs Hc HB HD (shaped_self _ _ _ _ Hc) (le_n _)) as H.
    cbn [getConstAndScale] in H. rewrite (needs_scale_int f _ Hf) in H by (apply Z.lt_trans with (2 ^ 52); [exact Hk|reflexivity]).
    cbv zeta in H. destruct H as [H1 H2]. split; [exact H1|]. split.
    - unfold c', MultByConst. destruct (getConstAndScale _ _ _) as [[? ?] ?]. unfold ctDegree. cbn [ctV]. rewrite (rewrite_length rQ L EL). lia.
    - rewrite (scaled_int f _ Hf Hk), scaled_zero in H2. destruct (ct_ok_repr rQ BQ L EL level canon _ H1) as [C HC].
      apply (ct_repr_peq rQ BQ L EL level canon _ C sk s _ _ HC (fits_canon rQ BQ L EL) Hs H2). intros i Hi. apply gauss_scale.
  Qed.

  (** The receiver multiplied up to the target scale. *)
  Lemma raise_ok level B c target sk s M : secret rQ L sk s -> ct_ok rQ level B c -> fits rQ B -> decrypts rQ L sk c M ->
    f64_lt (ctScale c) target = true -> 1 <= match_factor target (ctScale c) < 2 ^ 52 ->
    let f := f64_floor (f64_div target (ctScale c)) in
    let c' := with_scale (if f64_lt (f64_of_Z 1) f then MultByConst rQ c (CFloat f) c else c) target in
    ct_ok rQ level B c' /\ ctDegree c' = ctDegree c /\ ctScale c' = target /\ decrypts rQ L sk c' (pscale (match_factor target (ctScale c)) M).
  Proof.
    intros Hs Hc HB HD Hlt Hk f c'. unfold match_factor in Hk. fold f in Hk. rewrite Hlt in Hk. cbn [andb] in Hk.
    unfold match_factor. fold f. rewrite Hlt. cbn [andb]. unfold c'. destruct (f64_lt (f64_of_Z 1) f) eqn:E1.
    - destruct (mult_float_int level B c f sk s M Hs Hc HB HD) as (X1 & X2 & X3).
      + apply (factor_int target (ctScale c)); [|lia]. unfold scale_ratio. fold f. rewrite Hlt, E1. reflexivity.
      + lia.
      + split; [apply ct_ok_with|split; [exact X2|split; [reflexivity|exact X3]]].
        destruct X1 as (A1 & A2 & A3 & A4). split; [exact A1|]. split; [exact A2|]. split; [exact A3|]. intros j Hj. destruct (A4 j Hj) as [A5 [A6 A7]]. split; [exact A5|].
        split; [exact A6|]. intros i Hi. destruct (A7 i Hi) as [A8 A9]. split; [exact A8|]. intros k Hk'. specialize (A9 k Hk'). unfold canon in A9. destruct (HB i ltac:(lia)). lia.
    - split; [exact Hc|]. split; [reflexivity|]. split; [reflexivity|]. apply decrypts_with.
      destruct (ct_ok_repr rQ BQ L EL level B c Hc) as [C HC].
      apply (ct_repr_peq rQ BQ L EL level B c C sk s M _ HC HB Hs HD). intros i Hi k Hk'. unfold pscale. apply eqm_eq. ring.
  Qed.

  Lemma modulus_not_one i : (i < length (rmods rQ))%nat -> f64_eq (f64_of_Z (mq (rmod rQ i))) (f64_of_Z 1) = false.
  Proof.
    intros Hi. pose proof (fits_canon rQ BQ L EL i Hi) as [H1 H2]. unfold canon in *. destruct (one_mod rQ BQ i Hi) as [Hq _].
    destruct (of_Z_correct (mq (rmod rQ i))) as [E F]; [unfold W in H2; lia|].
    unfold f64_eq. rewrite Beqb_correct by (first [exact F|apply one_int]). apply Req_bool_false. rewrite E. destruct one_int as [_ ->].
    assert (Two : (IZR 2 <= rnd (IZR (mq (rmod rQ i))))%R).
    { rewrite <- (rnd_Z 2) by (vm_compute; discriminate). apply rnd_le. apply IZR_le. lia. }
    intros X. rewrite X in Two. apply le_IZR in Two. lia.
  Qed.
  Lemma one_is_one : f64_eq (f64_of_Z 1) (f64_of_Z 1) = true.
  Proof. vm_compute. reflexivity. Qed.

  (** ** MultByConstAndAdd *)
  Lemma const_and_add level0 level1 B0 B1 c k out sk s M0 Mo : secret rQ L sk s ->
    ct_ok rQ level0 B0 c -> ct_ok rQ level1 B1 out -> fits rQ B0 -> fits rQ B1 -> decrypts rQ L sk c M0 -> decrypts rQ L sk out Mo -> (ctDegree c <= ctDegree out)%nat ->
    is_finite (ctScale c) = true -> is_finite (ctScale out) = true -> (0 < B2R (ctScale c))%R -> (0 < B2R (ctScale out))%R ->
    let level := Nat.min level0 level1 in let q := f64_of_Z (mq (rmod rQ level)) in
    let ratio := f64_div (ctScale out) (ctScale c) in let '(re, im) := const_parts k in
    is_finite ratio = true -> in_range re q -> in_range im q -> in_range re ratio -> in_range im ratio ->
    (forall sigma, sigma = f64_of_Z 1 \/ sigma = q -> 1 <= match_factor (f64_mul (ctScale c) sigma) (ctScale out) < 2 ^ 52) ->
    exists sigma0 sigma f a b c', (sigma0 = f64_of_Z 1 \/ sigma0 = q) /\
      (forall x y, float_int re x -> float_int im y -> Z.abs x < 2 ^ 52 -> Z.abs y < 2 ^ 52 -> sigma0 = f64_of_Z 1) /\
      (let S := f64_mul (ctScale c) sigma0 in
       (f64_lt (ctScale out) S = true /\ sigma = sigma0 /\ f = match_factor S (ctScale out) /\ ctScale c' = S) \/
       (f64_lt S (ctScale out) = true /\ sigma = ratio /\ f = 1 /\ ctScale c' = ctScale out) \/
       (f64_lt (ctScale out) S = false /\ f64_lt S (ctScale out) = false /\ sigma = sigma0 /\ f = 1 /\ ctScale c' = ctScale out)) /\
      near_product re sigma a /\ near_product im sigma b /\
      MultByConstAndAdd rQ c k out = Some c' /\ ct_ok rQ level B1 c' /\ ctDegree c' = ctDegree out /\
      decrypts rQ L sk c' (padd (pscale f Mo) (pmul n (pgauss n a b) M0)).
  Proof.
    intros Hs Hc Ho HB0 HB1 HD HDo Hdeg Fc Fo Pc Po level q ratio.
    pose proof (ct_ok_level rQ L EL level0 B0 c Hc) as E0. pose proof (ct_ok_level rQ L EL level1 B1 out Ho) as E1.
    assert (Hlev : (level < length (rmods rQ))%nat) by (destruct Hc as [Hc' _]; unfold level; lia).
    destruct (parts_of rQ level k) as (sigma0 & E & Hsg & Hone).
    destruct (const_parts k) as [re im]. cbn [fst snd] in *. intros Fr R1 R2 R3 R4 HF.
    destruct (drop_to_ok rQ BQ L EL level1 level B1 out sk s Mo Hs Ho HB1 HDo ltac:(unfold level; lia)) as (O1 & O2 & O3 & O4).
    remember (drop_to level out) as o eqn:Eo.
    destruct (modulus_float rQ BQ L EL level Hlev) as [Fq Pq]. fold q in Fq, Pq.
    pose proof (div_pos (ctScale out) (ctScale c) Fo Fc Po Pc Fr) as Pr. fold ratio in Pr.
    assert (N0 : forall x, in_range x q -> near_product x sigma0 (scaled x sigma0)).
    { intros x Hx. destruct Hsg as [-> | ->].
      - apply near_scaled; [exact (range_one rQ BQ L EL x level Hlev Hx)|apply one_int|]. destruct one_int as [_ ->]. lra.
      - apply near_scaled; [exact Hx|exact Fq|fold q; lra]. }
    assert (N1 : forall x, in_range x ratio -> near_product x ratio (scaled x ratio)) by (intros x Hx; apply near_scaled; assumption).
    specialize (HF sigma0 Hsg).
    (** The scales, in the three cases. *)
    assert (MS : exists o' sigma f, mad_scales rQ c o sigma0 = (o', sigma) /\
      (let S := f64_mul (ctScale c) sigma0 in
       (f64_lt (ctScale out) S = true /\ sigma = sigma0 /\ f = match_factor S (ctScale out) /\ ctScale o' = S) \/
       (f64_lt S (ctScale out) = true /\ sigma = ratio /\ f = 1 /\ ctScale o' = ctScale out) \/
       (f64_lt (ctScale out) S = false /\ f64_lt S (ctScale out) = false /\ sigma = sigma0 /\ f = 1 /\ ctScale o' = ctScale out)) /\
      near_product re sigma (scaled re sigma) /\ near_product im sigma (scaled im sigma) /\
      ct_ok rQ level B1 o' /\ ctDegree o' = ctDegree out /\ decrypts rQ L sk o' (pscale f Mo)).
    { assert (D1 : decrypts rQ L sk o (pscale 1 Mo)).
      { destruct (ct_ok_repr rQ BQ L EL level B1 o O1) as [C HC]. apply (ct_repr_peq rQ BQ L EL level B1 o C sk s Mo _ HC HB1 Hs O4). intros i Hi k' Hk'. unfold pscale. apply eqm_eq. ring. }
      assert (RA : f64_lt (ctScale out) (f64_mul (ctScale c) sigma0) = true ->
        let f := f64_floor (f64_div (f64_mul (ctScale c) sigma0) (ctScale o)) in
        let c' := with_scale (if f64_lt (f64_of_Z 1) f then MultByConst rQ o (CFloat f) o else o) (f64_mul (ctScale c) sigma0) in
        ct_ok rQ level B1 c' /\ ctDegree c' = ctDegree out /\ ctScale c' = f64_mul (ctScale c) sigma0 /\
        decrypts rQ L sk c' (pscale (match_factor (f64_mul (ctScale c) sigma0) (ctScale out)) Mo)).
      { intros Hlt. rewrite <- O3 in Hlt, HF |- *. rewrite <- O2. apply (raise_ok level B1 o _ sk s Mo); assumption. }
      unfold mad_scales. rewrite O3. destruct Hsg as [S1 | S1].
      - rewrite S1 in *. rewrite one_is_one. cbn [negb]. rewrite (mul_one _ Fc) in RA, HF |- *.
        destruct (f64_lt (ctScale c) (ctScale out)) eqn:LT1.
        + exists o, ratio, 1. split; [reflexivity|]. split; [right; left; split; [reflexivity|]; split; [reflexivity|]; split; [reflexivity|exact O3]|].
          split; [apply N1; exact R3|]. split; [apply N1; exact R4|]. split; [exact O1|]. split; [exact O2|exact D1].
        + destruct (f64_lt (ctScale out) (ctScale c)) eqn:LT2.
          * specialize (RA eq_refl). rewrite O3 in RA. destruct RA as (X1 & X2 & X3 & X4). eexists _, (f64_of_Z 1), _. split; [reflexivity|].
            split; [left; split; [reflexivity|]; split; [reflexivity|]; split; [reflexivity|exact X3]|]. split; [apply N0; exact R1|]. split; [apply N0; exact R2|].
            split; [exact X1|]. split; [exact X2|exact X4].
          * exists o, (f64_of_Z 1), 1. split; [reflexivity|]. split; [right; right; split; [reflexivity|]; split; [reflexivity|]; split; [reflexivity|]; split; [reflexivity|exact O3]|].
            split; [apply N0; exact R1|]. split; [apply N0; exact R2|]. split; [exact O1|]. split; [exact O2|exact D1].
      - fold q in S1. rewrite S1 in *. unfold q at 1. rewrite (modulus_not_one level Hlev). cbn [negb]. fold q.
        destruct (f64_lt (ctScale out) (f64_mul (ctScale c) q)) eqn:LT1.
        + specialize (RA eq_refl). rewrite O3 in RA. rewrite (f64_mul_comm q (ctScale c)). destruct RA as (X1 & X2 & X3 & X4). eexists _, q, _. split; [reflexivity|].
            split; [left; split; [reflexivity|]; split; [reflexivity|]; split; [reflexivity|exact X3]|]. split; [apply N0; exact R1|]. split; [apply N0; exact R2|].
            split; [exact X1|]. split; [exact X2|exact X4].
        + destruct (f64_lt (f64_mul (ctScale c) q) (ctScale out)) eqn:LT2.
          * exists o, ratio, 1. split; [reflexivity|]. split; [right; left; split; [reflexivity|]; split; [reflexivity|]; split; [reflexivity|exact O3]|].
            split; [apply N1; exact R3|]. split; [apply N1; exact R4|]. split; [exact O1|]. split; [exact O2|exact D1].
          * exists o, q, 1. split; [reflexivity|]. split; [right; right; split; [reflexivity|]; split; [reflexivity|]; split; [reflexivity|]; split; [reflexivity|exact O3]|].
            split; [apply N0; exact R1|]. split; [apply N0; exact R2|]. split; [exact O1|]. split; [exact O2|exact D1]. }
    destruct MS as (o' & sigma & f & EM & Hcase & A1 & A2 & Q1 & Q2 & Q3).
    set (scalars := fun m => let '(x, y) := float_words re im sigma m in const_words m x y).
    destruct (mad_decrypts rQ BQ L EL level0 level B0 B1 c o' scalars (scaled re sigma) (scaled im sigma) (ctScale o') sk s M0 (pscale f Mo)) as (H1 & H2 & H3); try assumption.
    { unfold level. lia. } { rewrite Q2. exact Hdeg. } { apply (float_scals rQ BQ L EL level re im sigma Hlev). }
    exists sigma0, sigma, f, (scaled re sigma), (scaled im sigma), (mkCt (rewrite_comps (mad_poly rQ level scalars) (ctV c) (ctV o')) (ctScale o') (ctNTT o')). split; [exact Hsg|]. split.
    { intros x y Hx Hy Lx Ly. apply (Hone x y Hx Hy); [apply Z.lt_trans with (2 ^ 52); [exact Lx|reflexivity]|apply Z.lt_trans with (2 ^ 52); [exact Ly|reflexivity]]. }
    split; [exact Hcase|]. split; [exact A1|]. split; [exact A2|]. split.
    { unfold MultByConstAndAdd. assert (NL : Nat.ltb (length (ctV out)) (length (ctV c)) = false).
      { apply Nat.ltb_ge. assert (P0 := proj1 (proj2 Hc)). assert (P1 := proj1 (proj2 Ho)). unfold ctDegree in Hdeg. lia. }
      rewrite NL, E0, E1. fold level. rewrite E, <- Eo, EM. reflexivity. }
    split; [exact H1|]. split; [rewrite H2; exact Q2|exact H3].
  Qed.

  (** ** ScaleUp *)
  Lemma scale_up_ok level level' B c scale out sk s M : secret rQ L sk s -> ct_ok rQ level B c -> fits rQ B -> decrypts rQ L sk c M ->
    shaped (ctDegree c) level' out -> (level' <= level)%nat -> 0 <= f64_trunc scale < 2 ^ 52 -> is_finite (ctScale c) = true ->
    let c' := ScaleUp rQ c scale out in
    ct_ok rQ level' canon c' /\ ctScale c' = f64_mul (ctScale c) scale /\ decrypts rQ L sk c' (pscale (f64_trunc scale) M).
  Proof.
    intros Hs Hc HB HD HS Hl Hk Fs c'. destruct (mult_const_int rQ BQ L EL level level' B c (f64_trunc scale) out sk s M Hs Hc HB HD HS Hl) as (H1 & H2 & H3); [lia|exact Fs|].
    split; [exact H1|]. split; [reflexivity|exact H3].
  Qed.

  (** ** SetScale *)
  Lemma set_scale_rescales level B c scale sk s M : secret rQ L sk s -> ct_ok rQ level B c -> fits rQ B -> decrypts rQ L sk c M -> (0 < level)%nat ->
    let q := f64_of_Z (mq (rmod rQ level)) in let ratio := f64_div scale (ctScale c) in let up := f64_mul (ctScale c) q in
    in_range ratio q -> (forall k, B2R ratio <> IZR k) -> f64_le scale f64_zero = false -> f64_eq up f64_zero = false ->
    f64_le (f64_div scale (f64_of_Z 2)) (rescaled_scale rQ level 1 up) = true ->
    f64_le (f64_div scale (f64_of_Z 2)) (rescaled_scale rQ level 2 up) = false ->
    exists c' a M' R, SetScale rQ c scale = Done c' /\ ct_ok rQ (level - 1) canon c' /\ ctDegree c' = ctDegree c /\ ctScale c' = scale /\
      near_product ratio q a /\ decrypts rQ L sk c' M' /\
      (forall k, (k < n)%nat -> mq (rmod rQ level) * M' k + psum (S (ctDegree c)) (fun j => pmul n (R j) (ppow n s j)) k = a * M k) /\
      (forall j k, (k < n)%nat -> 2 * Z.abs (R j k) < mq (rmod rQ level)).
  Proof.
    intros Hs Hc HB HD Hlev q ratio up R0 NI P0 P1 L1 L2. pose proof (needs_scale_frac ratio (proj1 R0) NI) as NS.
    assert (Hll : (level < length (rmods rQ))%nat) by apply Hc.
    pose proof (ct_ok_level rQ L EL level B c Hc) as El.
    pose proof (mult_by_const rQ BQ L EL level level B c (CFloat ratio) c sk s M Hs Hc HB HD (shaped_self _ _ _ _ Hc) (le_n _)) as H.
    cbn [getConstAndScale] in H. rewrite NS in H. cbv zeta in H. fold q in H. rewrite scaled_zero in H. destruct H as [H1 H2].
    set (a := scaled ratio q) in *. set (c1 := MultByConst rQ c (CFloat ratio) c) in *.
    destruct (modulus_float rQ BQ L EL level Hll) as [Fq Pq]. fold q in Fq, Pq.
    assert (Ha : near_product ratio q a) by (apply near_scaled; [exact R0|exact Fq|lra]).
    assert (D1 : decrypts rQ L sk c1 (pscale a M)).
    { destruct (ct_ok_repr rQ BQ L EL level canon _ H1) as [C HC]. apply (ct_repr_peq rQ BQ L EL level canon _ C sk s _ _ HC (fits_canon rQ BQ L EL) Hs H2). intros i Hi. apply gauss_scale. }
    assert (Sc : ctScale c1 = up).
    { unfold c1, MultByConst. rewrite El, Nat.min_id. cbn [getConstAndScale]. rewrite NS. reflexivity. }
    assert (Dg : length (ctV c1) = length (ctV c)).
    { unfold c1, MultByConst. destruct (getConstAndScale _ _ _) as [[? ?] ?]. cbn [ctV]. rewrite (rewrite_length rQ L EL). lia. }
    assert (NP : (0 < length (ctV c))%nat) by apply Hc.
    destruct (rescale_correct rQ BQ L EL level level canon c1 scale c1 true sk s (pscale a M) H1) as [[HP _]|(nb & c' & (K1 & K2 & K3) & ER & HR & _)].
    - intros i Hi. destruct (one_mod rQ BQ i ltac:(lia)). unfold canon. lia.
    - apply (fits_canon rQ BQ L EL).
    - exact Hs.
    - exact D1.
    - apply (shaped_self rQ level canon). exact H1.
    - lia.
    - exact Hlev.
    - exact P0.
    - rewrite Sc. exact P1.
    - exfalso. rewrite Sc in HP. specialize (HP 1%nat ltac:(lia)). congruence.
    - rewrite Sc in *. assert (nb = 1%nat) as ->.
      { destruct nb as [|[|nb]]; [exfalso; rewrite L1 in K3; discriminate|reflexivity|]. exfalso. specialize (K2 1%nat ltac:(lia)). congruence. }
      destruct (HR ltac:(lia)) as (X1 & X2 & X3 & M' & R & X4 & X5 & X6).
      assert (EP : product (last_moduli rQ level 1) = mq (rmod rQ level)) by (unfold last_moduli; cbn; rewrite Nat.sub_0_r; ring).
      rewrite EP in X5, X6.
      exists (with_scale c' scale), a, M', R. split; [unfold SetScale; fold ratio; fold c1; rewrite ER; reflexivity|].
      split; [exact X1|]. split; [unfold ctDegree, with_scale; cbn [ctV]; lia|]. split; [reflexivity|]. split; [exact Ha|]. split; [exact X4|]. split.
      + intros k Hk. replace (S (ctDegree c)) with (length (ctV c1)) by (unfold ctDegree; lia). exact (X5 k Hk).
      + intros j k Hk. apply (X6 j k Hk). reflexivity.
  Qed.

  Lemma set_scale_integer level B c scale f sk s M : secret rQ L sk s -> ct_ok rQ level B c -> fits rQ B -> decrypts rQ L sk c M -> (0 < level)%nat ->
    float_int (f64_div scale (ctScale c)) f -> Z.abs f < 2 ^ 52 -> is_finite (ctScale c) = true -> f64_le scale f64_zero = false -> f64_eq (ctScale c) f64_zero = false ->
    f64_le (f64_div scale (f64_of_Z 2)) (rescaled_scale rQ level 1 (ctScale c)) = false ->
    exists c', SetScale rQ c scale = Done c' /\ ct_ok rQ level canon c' /\ ctDegree c' = ctDegree c /\ ctScale c' = scale /\ decrypts rQ L sk c' (pscale f M).
  Proof.
    intros Hs Hc HB HD Hlev Hf Hk Fs P0 P1 L1. set (ratio := f64_div scale (ctScale c)) in *.
    assert (Et : f64_trunc ratio = f) by (apply trunc_int; apply Hf).
    assert (Hll : (level < length (rmods rQ))%nat) by apply Hc.
    pose proof (ct_ok_level rQ L EL level B c Hc) as El.
    assert (NS : needs_scale ratio = false) by (apply (needs_scale_int ratio f Hf); apply Z.lt_trans with (2 ^ 52); [exact Hk|reflexivity]).
    destruct (mult_float_int level B c ratio sk s M Hs Hc HB HD) as (H1 & H2 & H3); try (rewrite Et; assumption). rewrite Et in H3.
    set (c1 := MultByConst rQ c (CFloat ratio) c) in *.
    assert (Sc : ctScale c1 = ctScale c).
    { unfold c1, MultByConst. rewrite El, Nat.min_id. cbn [getConstAndScale]. rewrite NS. cbn [ctScale]. apply mul_one. exact Fs. }
    assert (NP : (0 < length (ctV c))%nat) by apply Hc.
    destruct (rescale_correct rQ BQ L EL level level canon c1 scale c1 true sk s (pscale f M) H1) as [[HP _]|(nb & c' & (K1 & K2 & K3) & ER & _ & HR)].
    - intros i Hi. destruct (one_mod rQ BQ i ltac:(lia)). unfold canon. lia.
    - apply (fits_canon rQ BQ L EL).
    - exact Hs.
    - exact H3.
    - apply (shaped_self rQ level canon). exact H1.
    - lia.
    - exact Hlev.
    - exact P0.
    - rewrite Sc. exact P1.
    - exfalso. rewrite Sc in HP. specialize (HP 0%nat ltac:(lia)). congruence.
    - rewrite Sc in *. assert (nb = 0%nat) as ->.
      { destruct nb as [|nb]; [reflexivity|]. exfalso. specialize (K2 0%nat ltac:(lia)). congruence. }
      specialize (HR eq_refl). cbn in HR. subst c'.
      exists (with_scale c1 scale). split; [unfold SetScale; fold ratio; fold c1; rewrite ER; reflexivity|].
      split; [exact H1|]. split; [exact H2|]. split; [reflexivity|exact H3].
  Qed.

  Lemma set_scale_none level B c scale sk s M : secret rQ L sk s -> ct_ok rQ level B c -> fits rQ B -> decrypts rQ L sk c M -> (0 < level)%nat ->
    let q := f64_of_Z (mq (rmod rQ level)) in let ratio := f64_div scale (ctScale c) in let up := f64_mul (ctScale c) q in
    in_range ratio q -> (forall k, B2R ratio <> IZR k) -> f64_le scale f64_zero = false -> f64_eq up f64_zero = false ->
    f64_le (f64_div scale (f64_of_Z 2)) (rescaled_scale rQ level 1 up) = false ->
    exists c' a, SetScale rQ c scale = Done c' /\ ct_ok rQ level canon c' /\ ctDegree c' = ctDegree c /\ ctScale c' = scale /\
      near_product ratio q a /\ decrypts rQ L sk c' (pscale a M).
  Proof.
    intros Hs Hc HB HD Hlev q ratio up R0 NI P0 P1 L1. pose proof (needs_scale_frac ratio (proj1 R0) NI) as NS.
    assert (Hll : (level < length (rmods rQ))%nat) by apply Hc.
    pose proof (ct_ok_level rQ L EL level B c Hc) as El.
    pose proof (mult_by_const rQ BQ L EL level level B c (CFloat ratio) c sk s M Hs Hc HB HD (shaped_self _ _ _ _ Hc) (le_n _)) as H.
    cbn [getConstAndScale] in H. rewrite NS in H. cbv zeta in H. fold q in H. rewrite scaled_zero in H. destruct H as [H1 H2].
    set (a := scaled ratio q) in *. set (c1 := MultByConst rQ c (CFloat ratio) c) in *.
    destruct (modulus_float rQ BQ L EL level Hll) as [Fq Pq]. fold q in Fq, Pq.
    assert (Ha : near_product ratio q a) by (apply near_scaled; [exact R0|exact Fq|lra]).
    assert (D1 : decrypts rQ L sk c1 (pscale a M)).
    { destruct (ct_ok_repr rQ BQ L EL level canon _ H1) as [C HC]. apply (ct_repr_peq rQ BQ L EL level canon _ C sk s _ _ HC (fits_canon rQ BQ L EL) Hs H2). intros i Hi. apply gauss_scale. }
    assert (Sc : ctScale c1 = up).
    { unfold c1, MultByConst. rewrite El, Nat.min_id. cbn [getConstAndScale]. rewrite NS. reflexivity. }
    assert (Dg : length (ctV c1) = length (ctV c)).
    { unfold c1, MultByConst. destruct (getConstAndScale _ _ _) as [[? ?] ?]. cbn [ctV]. rewrite (rewrite_length rQ L EL). lia. }
    destruct (rescale_correct rQ BQ L EL level level canon c1 scale c1 true sk s (pscale a M) H1) as [[HP _]|(nb & c' & (K1 & K2 & K3) & ER & _ & HR)].
    - intros i Hi. destruct (one_mod rQ BQ i ltac:(lia)). unfold canon. lia.
    - apply (fits_canon rQ BQ L EL).
    - exact Hs.
    - exact D1.
    - apply (shaped_self rQ level canon). exact H1.
    - lia.
    - exact Hlev.
    - exact P0.
    - rewrite Sc. exact P1.
    - exfalso. rewrite Sc in HP. specialize (HP 0%nat ltac:(lia)). congruence.
    - rewrite Sc in *. assert (nb = 0%nat) as ->.
      { destruct nb as [|nb]; [reflexivity|]. exfalso. specialize (K2 0%nat ltac:(lia)). congruence. }
      specialize (HR eq_refl). cbn in HR. subst c'.
      exists (with_scale c1 scale), a. split; [unfold SetScale; fold ratio; fold c1; rewrite ER; reflexivity|].
      split; [exact H1|]. split; [unfold ctDegree, with_scale; cbn [ctV]; lia|]. split; [reflexivity|]. split; [exact Ha|exact D1].
  Qed.
End Top.
