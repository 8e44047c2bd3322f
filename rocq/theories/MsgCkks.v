(** Computing on messages with the evaluator of ckks. *)
From Coq Require Import ZArith Reals Lra Lia List Arith.
From Flocq Require Import Core.Core IEEE754.BinarySingleNaN.
From Coquelicot Require Import Complex.
From Verif Require Import Word ModRed Arith Fermat ModRedProofs PolySpec PolyProofs Ring RingProofs NTT NTTProofs RingOps RNSSpec Repr RowProofs OpsProofs CRT Automorphism AutoProps Scaling ScalingSpec ScalingMore Float64 FloatProofs
  GadgetSpec Gadget GadgetProofs Frlwe FrlweSwitch Rlwe RlweSpec RlweBase RlweKeys RlweSwitch RlweGen RlweEnc RlweTop Ckks CkksSpec CkksBase CkksOps CkksFloat CkksAdd CkksRescale CkksMul CkksRelin CkksRot Fckks FckksSpec FckksProps
  Fft FftSpec FftProofs FftRing FftTop SlotSpec SlotProofs EncSpec EncFloat SlotTrace MsgSpec SlotMsg Msg MsgProofs MsgOps.
From Verif Require BasisEx.
Import ListNotations.
Open Scope R_scope.

(** ** Scales *)
Lemma match_pos a b : (1 <= match_factor a b)%Z -> 0 <= IZR (match_factor a b).
Proof. intros H. apply IZR_le. lia. Qed.
Lemma match_same s : match_factor s s = 1%Z.
Proof.
  unfold match_factor. replace (f64_lt s s) with false; [reflexivity|]. unfold f64_lt. destruct (is_finite s) eqn:F.
  - rewrite Bltb_correct by exact F. symmetry. apply Rlt_bool_false. lra.
  - destruct s as [?|[|]| |? ? ? ?]; try discriminate; reflexivity.
Qed.
Lemma max_same s : MaxFloat64 s s = s.
Proof. unfold MaxFloat64. destruct (f64_le s s); reflexivity. Qed.

Section Sums.
  Variables (rQ : Ring) (m L : nat).
  Hypothesis (BQ : built_ring 9 rQ) (EN : rN rQ = (2 ^ (m + 1))%nat).
  Let HN : (0 < rN rQ)%nat.
  Proof. rewrite EN. apply Nat.neq_0_lt_0, Nat.pow_nonzero. lia. Qed.

  Lemma sf_times k P s v e : (0 <= k)%Z -> stands_for (rN rQ) L P s v e -> stands_for (rN rQ) L (pscale k P) (IZR k * s) v (IZR k * e).
  Proof.
    intros Hk H j. specialize (H j). rewrite slot_scale.
    replace (RtoC (IZR k) * slot (rN rQ) P j - RtoC (IZR k * s) * v (j mod 2 ^ L)%nat)%C with (RtoC (IZR k) * (slot (rN rQ) P j - RtoC s * v (j mod 2 ^ L)%nat))%C by (rewrite RtoC_mult; unfold Cminus; ring).
    rewrite Cmod_mult, Cmod_R, Rabs_pos_eq by (apply IZR_le; exact Hk). apply Rmult_le_compat_l; [apply IZR_le; exact Hk|exact H].
  Qed.
  Lemma msg_add level0 level1 lo d B0 B1 c0 c1 out pool sk s v0 v1 A0 A1 e0 e1 :
    secret rQ (m + 1) sk s -> ct_ok rQ level0 B0 c0 -> ct_ok rQ level1 B1 c1 -> fits rQ B0 -> fits rQ B1 -> fits rQ (fun q => B0 q + B1 q - q)%Z ->
    carries rQ m L sk c0 v0 e0 -> carries rQ m L sk c1 v1 e1 -> vbound v0 A0 -> vbound v1 A1 -> (1 <= ctDegree c0 + ctDegree c1)%nat ->
    shaped d lo out -> (ctDegree c0 <= d)%nat -> (ctDegree c1 <= d)%nat -> (ctDegree c0 <= ctDegree pool)%nat -> (ctDegree c1 <= ctDegree pool)%nat ->
    let level := Nat.min (Nat.min level0 level1) lo in (level <= ctLevel pool)%nat ->
    let k0 := match_factor (ctScale c1) (ctScale c0) in let k1 := match_factor (ctScale c0) (ctScale c1) in
    (1 <= k0 < 2 ^ 52)%Z -> (1 <= k1 < 2 ^ 52)%Z ->
    exists c, Add rQ c0 c1 out pool = Some c /\ ct_ok rQ level (fun q => B0 q + B1 q - q)%Z c /\ ctDegree c = Nat.max (ctDegree c0) (ctDegree c1) /\
      ctScale c = MaxFloat64 (ctScale c0) (ctScale c1) /\
      carries rQ m L sk c (fun k => (v0 k + v1 k)%C) (sum_eps (fval (ctScale c)) (fval (ctScale c0)) (fval (ctScale c1)) A0 A1 e0 e1 k0 k1).
  Proof.
    intros Hs K0 K1 F0 F1 F2 (M0 & D0 & S0) (M1 & D1 & S1) V0 V1 HD HO G0 G1 P0 P1 level Hp k0 k1 Hk0 Hk1.
    destruct (add_correct rQ BQ (m + 1) EN level0 level1 lo d B0 B1 c0 c1 out pool sk s M0 M1 Hs K0 K1 F0 F1 F2 D0 D1 HD HO G0 G1 P0 P1 Hp Hk0 Hk1) as (c & X1 & X2 & X3 & X4 & X5).
    exists c. split; [exact X1|]. split; [exact X2|]. split; [exact X3|]. split; [exact X4|]. eexists. split; [exact X5|]. unfold sum_eps. fold k0 k1.
    apply sf_add; [exact HN| |]; (apply sf_scale; [|assumption]); apply sf_times; try assumption; lia.
  Qed.
  Lemma msg_sub level0 level1 lo d B0 B c0 c1 out pool sk s v0 v1 A0 A1 e0 e1 :
    secret rQ (m + 1) sk s -> ct_ok rQ level0 B0 c0 -> ct_ok rQ level1 closed c1 -> fits rQ B0 -> fits rQ B ->
    (forall i, (i < length (rmods rQ))%nat -> (B0 (mq (rmod rQ i)) <= B (mq (rmod rQ i)))%Z /\ ((ctDegree c0 < ctDegree c1)%nat -> (closed (mq (rmod rQ i)) <= B (mq (rmod rQ i)))%Z)) ->
    carries rQ m L sk c0 v0 e0 -> carries rQ m L sk c1 v1 e1 -> vbound v0 A0 -> vbound v1 A1 -> (1 <= ctDegree c0 + ctDegree c1)%nat ->
    shaped d lo out -> (ctDegree c0 <= d)%nat -> (ctDegree c1 <= d)%nat -> (ctDegree c0 <= ctDegree pool)%nat -> (ctDegree c1 <= ctDegree pool)%nat ->
    let level := Nat.min (Nat.min level0 level1) lo in (level <= ctLevel pool)%nat ->
    let k0 := match_factor (ctScale c1) (ctScale c0) in let k1 := match_factor (ctScale c0) (ctScale c1) in
    (1 <= k0 < 2 ^ 52)%Z -> (1 <= k1 < 2 ^ 52)%Z ->
    exists c, Sub rQ c0 c1 out pool = Some c /\ ct_ok rQ level B c /\ ctDegree c = Nat.max (ctDegree c0) (ctDegree c1) /\
      ctScale c = MaxFloat64 (ctScale c0) (ctScale c1) /\
      carries rQ m L sk c (fun k => (v0 k - v1 k)%C) (sum_eps (fval (ctScale c)) (fval (ctScale c0)) (fval (ctScale c1)) A0 A1 e0 e1 k0 k1).
  Proof.
    intros Hs K0 K1 F0 F1 F2 (M0 & D0 & S0) (M1 & D1 & S1) V0 V1 HD HO G0 G1 P0 P1 level Hp k0 k1 Hk0 Hk1.
    destruct (sub_correct rQ BQ (m + 1) EN level0 level1 lo d B0 B c0 c1 out pool sk s M0 M1 Hs K0 K1 F0 F1 F2 D0 D1 HD HO G0 G1 P0 P1 Hp Hk0 Hk1) as (c & X1 & X2 & X3 & X4 & X5).
    exists c. split; [exact X1|]. split; [exact X2|]. split; [exact X3|]. split; [exact X4|]. eexists. split; [exact X5|]. unfold sum_eps. fold k0 k1.
    apply sf_sub; [exact HN| |]; (apply sf_scale; [|assumption]); apply sf_times; try assumption; lia.
  Qed.
End Sums.

(** ** Rescaling *)
Lemma div_step x q h : scale_ok x -> fval x <= IZR (2 ^ 1000) -> (2 <= q < 2 ^ 64)%Z -> ffinite h -> / 2 <= fval h -> f64_le h (f64_div x (f64_of_Z q)) = true ->
  let y := f64_div x (f64_of_Z q) in scale_ok y /\ fval y <= IZR (2 ^ 1000) /\
  fval x / IZR q * (1 - / 2 ^ 51) <= fval y <= fval x / IZR q * (1 + / 2 ^ 51).
Proof.
  intros [Fx Px] Hx Hq Fh Hh HL y. rewrite big_Z in *. assert (B := big_le_1001).
  assert (Q2 : 2 <= IZR q) by (apply IZR_le; lia). assert (Q64 : IZR q <= IZR (2 ^ 64)) by (apply IZR_le; lia).
  assert (E64 : IZR (2 ^ 64) = bpow radix2 64) by (apply (IZR_Zpower radix2 64); discriminate).
  destruct (of_Z_big q) as [Eq Fq].
  { rewrite Rabs_pos_eq by lra. rewrite E64 in Q64. apply Rle_trans with (1 := Q64). apply bpow_le. lia. }
  assert (Rq : Rabs (rnd (IZR q) - IZR q) <= u64f * Rabs (IZR q)).
  { apply rnd_err. rewrite Rabs_pos_eq by lra. apply Rle_trans with (bpow radix2 1); [apply bpow_le; lia|]. change (bpow radix2 1) with 2. exact Q2. }
  rewrite (Rabs_pos_eq (IZR q)) in Rq by lra. set (rq := rnd (IZR q)) in *. rewrite u64f_val in Rq. apply Rabs_le_inv in Rq.
  assert (Pq : 1 <= rq) by lra.
  assert (D1 : 0 < fval x / rq) by (apply Rdiv_lt_0_compat; lra).
  assert (D2 : fval x / rq <= fval x) by (unfold Rdiv; rewrite <- (Rmult_1_r (fval x)) at 2; apply Rmult_le_compat_l; [lra|]; rewrite <- Rinv_1; apply Rinv_le_contravar; lra).
  destruct (div_big x (f64_of_Z q) Fx) as [Ey Fy]; [rewrite Eq; lra|rewrite Eq, Rabs_pos_eq by lra; lra|]. fold y in Ey, Fy. rewrite Eq in Ey.
  unfold f64_le in HL. rewrite Bleb_correct in HL by assumption. fold y in HL. apply Rle_bool_true in HL || (destruct (Rle_bool_spec (fval h) (fval y)); [|discriminate]).
  assert (NB : bpow radix2 (-1022) <= Rabs (fval x / rq)).
  { rewrite Rabs_pos_eq by lra. destruct (Rle_or_lt (bpow radix2 (-1022)) (fval x / rq)) as [Z|Z]; [exact Z|]. exfalso.
    assert (Y : rnd (fval x / rq) <= bpow radix2 (-1022)) by (apply rnd_gen; [apply fmt_bpow; lia|lra]).
    assert (bpow radix2 (-1022) < bpow radix2 (-1)) by (apply bpow_lt; lia). change (bpow radix2 (-1)) with (/ 2) in *. lra. }
  assert (Ry := rnd_err _ NB). rewrite (Rabs_pos_eq (fval x / rq)) in Ry by lra. rewrite <- Ey in Ry. rewrite u64f_val in Ry. apply Rabs_le_inv in Ry.
  set (z := fval x / IZR q). assert (Ez : fval x / rq = z * (IZR q / rq)) by (unfold z; field; lra).
  assert (Pz : 0 < z) by (apply Rdiv_lt_0_compat; lra).
  assert (U : IZR q / rq <= 1 + / 9007199254740992 * (1 + / 1000)).
  { apply (Rmult_le_reg_r rq); [lra|]. unfold Rdiv. rewrite Rmult_assoc, Rinv_l by lra. nra. }
  assert (Lw : 1 - / 9007199254740992 <= IZR q / rq).
  { apply (Rmult_le_reg_r rq); [lra|]. unfold Rdiv. rewrite Rmult_assoc, Rinv_l by lra. nra. }
  replace (2 ^ 51) with 2251799813685248 by (rewrite (pow_IZR 2 51); reflexivity).
  rewrite Ez in Ry. set (w := IZR q / rq) in *. assert (Zu : z * w <= z * (1 + / 9007199254740992 * (1 + / 1000))) by (apply Rmult_le_compat_l; lra).
  assert (Zl : z * (1 - / 9007199254740992) <= z * w) by (apply Rmult_le_compat_l; lra).
  assert (XX : fval y <= fval x / IZR q * (1 + / 2251799813685248)) by (fold z; nra).
  split; [split; [exact Fy|]|split; [|split; [|exact XX]]].
  - lra.
  - rewrite Ey. apply rnd_gen; [apply fmt_bpow; lia|]. lra.
  - fold z. nra.
Qed.
Lemma rescaled_value r level s h : scale_ok s -> fval s <= IZR (2 ^ 1000) -> ffinite h -> / 2 <= fval h -> (forall i, (i <= level)%nat -> (2 <= mq (rmod r i) < 2 ^ 64)%Z) ->
  forall nb, (forall i, (i < nb)%nat -> f64_le h (rescaled_scale r level (S i) s) = true) ->
  let D := IZR (product (last_moduli r level nb)) in let s' := rescaled_scale r level nb s in 0 < D /\ scale_ok s' /\ fval s' <= IZR (2 ^ 1000) /\
  fval s / D * (1 - / 2 ^ 51) ^ nb <= fval s' <= fval s / D * (1 + / 2 ^ 51) ^ nb.
Proof.
  intros Hs HB Fh Hh HM nb. induction nb as [|nb IH]; intros HL D s'.
  - unfold D, s', rescaled_scale. cbn. split; [lra|]. split; [exact Hs|]. split; [exact HB|]. lra.
  - destruct IH as (P & I1 & I2 & I3); [intros i Hi; apply HL; lia|]. specialize (HL nb ltac:(lia)). unfold s'. rewrite rescale_scale_snoc in *.
    set (x := rescaled_scale r level nb s) in *. destruct (div_step x (mq (rmod r (level - nb))) h I1 I2 (HM (level - nb)%nat ltac:(lia)) Fh Hh HL) as (Y1 & Y2 & Y3).
    set (q := mq (rmod r (level - nb))) in *. assert (Q2 : 2 <= IZR q) by (apply IZR_le; apply (HM (level - nb)%nat); lia).
    assert (ED : D = IZR (product (last_moduli r level nb)) * IZR q).
    { unfold D. rewrite last_moduli_snoc, <- mult_IZR. f_equal. fold q. generalize (last_moduli r level nb). intros l. unfold product.
      induction l as [|a l IH]; cbn [app fold_right]; [lia|]. rewrite IH. apply Z.mul_assoc. }
    set (D0 := IZR (product (last_moduli r level nb))) in *. assert (P' : 0 < D) by (rewrite ED; apply Rmult_lt_0_compat; lra).
    split; [exact P'|]. split; [exact Y1|]. split; [exact Y2|]. assert (EQ : fval s / D = fval s / D0 / IZR q) by (rewrite ED; field; lra). rewrite EQ.
    assert (IQ : 0 < / IZR q) by (apply Rinv_0_lt_compat; lra). assert (T : 0 < / 2 ^ 51 < 1) by (split; [apply Rinv_0_lt_compat, pow_lt; lra|rewrite <- Rinv_1; apply Rinv_lt_contravar; [rewrite Rmult_1_l; apply pow_lt; lra|apply Rlt_pow_R1; [lra|lia]]]).
    set (t := / 2 ^ 51) in *. clearbody t. cbn [pow]. split.
    + apply Rle_trans with (2 := proj1 Y3). replace (fval s / D0 / IZR q * ((1 - t) * (1 - t) ^ nb)) with (fval s / D0 * (1 - t) ^ nb / IZR q * (1 - t)) by (field; lra).
      apply Rmult_le_compat_r; [lra|]. unfold Rdiv at 1 3. apply Rmult_le_compat_r; [lra|]. apply I3.
    + apply Rle_trans with (1 := proj2 Y3). replace (fval s / D0 / IZR q * ((1 + t) * (1 + t) ^ nb)) with (fval s / D0 * (1 + t) ^ nb / IZR q * (1 + t)) by (field; lra).
      apply Rmult_le_compat_r; [lra|]. unfold Rdiv at 1 3. apply Rmult_le_compat_r; [lra|]. apply I3.
Qed.
Lemma pow_sym t nb : 0 <= t <= 1 -> 1 - (1 - t) ^ nb <= (1 + t) ^ nb - 1.
Proof.
  intros Ht. induction nb as [|nb IH]; [cbn; lra|]. cbn [pow]. assert (0 <= (1 - t) ^ nb) by (apply pow_le; lra).
  assert (X : (1 - t) ^ nb <= 1 ^ nb) by (apply pow_incr; lra). rewrite pow1 in X. assert (1 <= (1 + t) ^ nb) by (apply pow_R1_Rle; lra).
  assert (0 <= t * ((1 + t) ^ nb - (1 - t) ^ nb)) by (apply Rmult_le_pos; lra). lra.
Qed.

Section Rescale.
  Variables (rQ : Ring) (m L : nat).
  Hypothesis (BQ : built_ring 9 rQ) (EN : rN rQ = (2 ^ (m + 1))%nat).
  Let n := rN rQ.
  Let HN : (0 < n)%nat.
  Proof. unfold n. rewrite EN. apply Nat.neq_0_lt_0, Nat.pow_nonzero. lia. Qed.

  Lemma slot_ppow s j k : slot n (ppow n s j) k = Cpw (slot n s k) j.
  Proof.
    induction j as [|j IH]; cbn [ppow rpow]; [rewrite slot_ev by exact HN; apply ev_one; exact HN|]. rewrite slot_mul by exact HN. rewrite IH. ring.
  Qed.
  Lemma Cmod_Cpw x j : Cmod (Cpw x j) = Cmod x ^ j.
  Proof. induction j as [|j IH]; cbn [rpow pow]; [rewrite Cmod_R; apply Rabs_R1|]. rewrite Cmod_mult, IH. reflexivity. Qed.
  Lemma slot_sum d R s k D Bs : (0 <= Bs)%Z -> pbound n Bs s -> (forall j i, (i < n)%nat -> Rabs (IZR (R j i)) <= D) ->
    Cmod (slot n (psum (S d) (fun j => pmul n (R j) (ppow n s j))) k) <= D * (INR n * sum_f_R0 (fun j => (INR n * IZR Bs) ^ j) d).
  Proof.
    intros HB Hs HR. assert (SB := slot_boundR n s (IZR Bs) k ltac:(intros i Hi; rewrite <- abs_IZR; apply IZR_le, Hs; exact Hi)).
    assert (T : forall j, Cmod (slot n (pmul n (R j) (ppow n s j)) k) <= D * INR n * (INR n * IZR Bs) ^ j).
    { intros j. rewrite slot_mul by exact HN. rewrite slot_ppow, Cmod_mult, Cmod_Cpw. assert (X := slot_boundR n (R j) D k (HR j)).
      apply Rmult_le_compat; [apply Cmod_ge_0|apply pow_le, Cmod_ge_0|lra|apply pow_incr; split; [apply Cmod_ge_0|exact SB]]. }
    induction d as [|d IH].
    - assert (E : slot n (psum 1 (fun j => pmul n (R j) (ppow n s j))) k = slot n (pmul n (R 0%nat) (ppow n s 0)) k).
      { apply csum_ext. intros i _. do 3 f_equal. }
      rewrite E. apply Rle_trans with (1 := T 0%nat). cbn [sum_f_R0]. lra.
    - assert (E : slot n (psum (S (S d)) (fun j => pmul n (R j) (ppow n s j))) k = Cplus (slot n (psum (S d) (fun j => pmul n (R j) (ppow n s j))) k) (slot n (pmul n (R (S d)) (ppow n s (S d))) k)).
      { rewrite <- slot_add by exact HN. apply csum_ext. intros i _. do 3 f_equal. }
      rewrite E. apply Rle_trans with (1 := Cmod_triangle _ _). cbn [sum_f_R0]. specialize (T (S d)). lra.
  Qed.

  Lemma msg_rescale level lo B c minScale out same sk s v A eps Bs :
    ct_ok rQ level B c -> (forall i, (i <= level)%nat -> (B (mq (rmod rQ i)) <= 2 * mq (rmod rQ i))%Z) -> fits rQ B ->
    secret rQ (m + 1) sk s -> (0 <= Bs)%Z -> pbound n Bs s -> carries rQ m L sk c v eps -> vbound v A -> shaped (ctDegree c) lo out -> (level <= lo)%nat -> (0 < level)%nat ->
    ffinite minScale -> 1 <= fval minScale <= IZR (2 ^ 1000) -> scale_ok (ctScale c) -> fval (ctScale c) <= IZR (2 ^ 1000) ->
    forall nb, (0 < nb)%nat -> rescale_count rQ level minScale (ctScale c) nb ->
    exists c', Rescale rQ same c minScale out = Done c' /\ ct_ok rQ (level - nb) canon c' /\ ctDegree c' = ctDegree c /\
      ctScale c' = rescaled_scale rQ level nb (ctScale c) /\ scale_ok (ctScale c') /\
      let D := product (last_moduli rQ level nb) in
      Rabs (fval (ctScale c') - fval (ctScale c) / IZR D) <= fval (ctScale c) / IZR D * ((1 + / 2 ^ 51) ^ nb - 1) /\
      carries rQ m L sk c' v (rescale_eps n (ctDegree c) Bs D nb (fval (ctScale c)) A eps).
  Proof.
    intros K HB F Hs HBs Hsb (M & DM & SM) HV HO Hlo Hl Fm Pm Hsc HS nb Hnb HC.
    assert (Z1 : f64_le minScale f64_zero = false).
    { unfold f64_le. rewrite Bleb_correct by (try exact Fm; reflexivity). apply Rle_bool_false. cbn. lra. }
    assert (Z2 : f64_eq (ctScale c) f64_zero = false).
    { unfold f64_eq. rewrite Beqb_correct by (try apply Hsc; reflexivity). destruct Hsc as [_ P]. apply Req_bool_false. cbn. lra. }
    set (h := f64_div minScale (f64_of_Z 2)).
    assert (H2 : / 2 <= fval h /\ ffinite h).
    { assert (E2 : fval (f64_of_Z 2) = 2) by (destruct (of_Z_big 2) as [E _]; [rewrite Rabs_pos_eq by lra; apply Rle_trans with (bpow radix2 1); [cbn; lra|apply bpow_le; lia]|]; rewrite E; apply (rnd_Z 2); vm_compute; discriminate).
      rewrite big_Z in Pm. assert (BB := big_le_1001). destruct (div_big minScale (f64_of_Z 2) Fm) as [E F2]; [rewrite E2; lra|rewrite E2, Rabs_pos_eq by lra; lra|]. fold h in E, F2. split; [|exact F2].
      rewrite E, E2. change (/ 2) with (bpow radix2 (-1)). apply rnd_gen'; [apply fmt_bpow; lia|]. change (bpow radix2 (-1)) with (/ 2). lra. }
    destruct H2 as [H2 Fh]. assert (HC' := HC). destruct HC as (C1 & C2 & C3). fold h in C2, C3.
    destruct (rescale_correct rQ BQ (m + 1) EN level lo B c minScale out same sk s M K HB F Hs DM HO Hlo Hl Z1 Z2) as [[X _]|(nb' & c' & (N1 & N2 & N3) & X1 & X2 & _)].
    { rewrite X in C3 by exact C1. discriminate. }
    fold h in N2, N3. assert (nb' = nb).
    { destruct (Nat.lt_trichotomy nb' nb) as [Y|[Y|Y]]; [rewrite C2 in N3 by exact Y; discriminate|exact Y|rewrite N2 in C3 by exact Y; discriminate]. }
    subst nb'. destruct (X2 Hnb) as (Y1 & Y2 & Y3 & M' & R & Y4 & Y5 & Y6). exists c'. split; [exact X1|]. split; [exact Y1|]. split; [unfold ctDegree; rewrite Y2; reflexivity|]. split; [exact Y3|].
    assert (HM : forall i, (i <= level)%nat -> (2 <= mq (rmod rQ i) < 2 ^ 64)%Z).
    { intros i Hi. destruct (one_mod rQ BQ i) as [Q1 Q2]; [destruct K; lia|]. change W with (2 ^ 64)%Z in Q2. lia. }
    destruct (rescaled_value rQ level (ctScale c) h Hsc HS Fh H2 HM nb C2) as (W1 & W2 & W3 & W4). cbv zeta in *. rewrite <- Y3 in W2, W4. split; [exact W2|].
    set (D := product (last_moduli rQ level nb)) in *. set (sc := fval (ctScale c)) in *. assert (Ps : 0 < sc / IZR D) by (apply Rdiv_lt_0_compat; [apply Hsc|exact W1]).
    assert (T : 0 <= / 2 ^ 51 <= 1) by (split; [apply Rlt_le, Rinv_0_lt_compat, pow_lt; lra|rewrite <- Rinv_1; apply Rinv_le_contravar; [lra|apply pow_R1_Rle; lra]]).
    assert (PS := pow_sym _ nb T). set (t := / 2 ^ 51) in *.
    assert (SB : Rabs (fval (ctScale c') - sc / IZR D) <= sc / IZR D * ((1 + t) ^ nb - 1)) by (apply Rabs_le; split; nra).
    split; [exact SB|]. exists M'. split; [exact Y4|]. unfold rescale_eps. fold t n.
    apply sf_weaken with ((eps + IZR D * (INR n * sum_f_R0 (fun j => (INR n * IZR Bs) ^ j) (ctDegree c))) / IZR D + Rabs (sc / IZR D - fval (ctScale c')) * A).
    - apply sf_scale; [|exact HV]. assert (PD : (0 < D)%Z) by (apply lt_IZR; exact W1).
      apply (sf_div' n L HN M M' (psum (length (ctV c)) (fun j => pmul n (R j) (ppow n s j))) sc v eps D); [exact PD|exact Y5| |exact SM].
      intros k. assert (EL : length (ctV c) = S (ctDegree c)) by (unfold ctDegree; destruct K as (_ & K & _); lia). rewrite EL. apply slot_sum; [exact HBs|exact Hsb|].
      intros j i Hi. rewrite <- abs_IZR. apply IZR_le. destruct (Y6 j i Hi). lia.
    - assert (Rabs (sc / IZR D - fval (ctScale c')) * A <= sc / IZR D * ((1 + t) ^ nb - 1) * A) by (apply Rmult_le_compat_r; [apply HV|]; rewrite Rabs_minus_sym; exact SB).
      match goal with |- (eps + IZR D * ?x) / IZR D + _ <= _ => replace ((eps + IZR D * x) / IZR D) with (eps / IZR D + x) by (field; lra) end. lra.
  Qed.
End Rescale.

(** ** Products, rotations and conjugation *)
Section Keys.
  Variables (rQ rP : Ring) (m L : nat).
  Hypothesis (HP : ring_pair rQ rP) (EN : rN rQ = (2 ^ (m + 1))%nat).
  Let n := rN rQ.
  Let HN : (0 < n)%nat.
  Proof. unfold n. rewrite EN. apply Nat.neq_0_lt_0, Nat.pow_nonzero. lia. Qed.

  Lemma msg_ckks_mul_relin levelK levelP level0 level1 lo B0 B1 rlk square c0 c1 out scratch sk s v0 v1 A0 A1 e0 e1 DQ Be Bs :
    secret rQ (m + 1) sk s -> key_levels rQ rP levelK levelP -> ct_ok rQ level0 B0 c0 -> ct_ok rQ level1 B1 c1 -> fits rQ B0 -> fits rQ B1 ->
    carries rQ m L sk c0 v0 e0 -> carries rQ m L sk c1 v1 e1 -> vbound v0 A0 -> vbound v1 A1 ->
    scale_ok (ctScale c0) -> scale_ok (ctScale c1) -> let s0 := fval (ctScale c0) in let s1 := fval (ctScale c1) in 1 <= s0 * s1 <= IZR (2 ^ 1000) ->
    ctDegree c0 = 1%nat -> ctDegree c1 = 1%nat -> (square = true -> c0 = c1) -> shaped 1 lo out ->
    let level := Nat.min (Nat.min level0 level1) lo in (level <= levelK)%nat ->
    swkey_ok rQ rP (m + 1) levelK levelP rlk s (ppow n s 2) Be -> blocks_below rQ level levelP DQ -> (0 <= Be)%Z -> (0 <= Bs)%Z -> pbound n Bs s ->
    exists c, MulRelin rQ rP levelP rlk square c0 c1 out scratch = Some c /\ ct_ok rQ level lazy c /\ ctDegree c = 1%nat /\
      ctScale c = f64_mul (ctScale c0) (ctScale c1) /\ scale_ok (ctScale c) /\
      carries rQ m L sk c (fun k => (v0 k * v1 k)%C) (product_eps s0 s1 A0 A1 e0 e1 + INR n * switch_size rQ rP level levelP DQ Be Bs).
  Proof.
    intros Hs KL K0 K1 F0 F1 (M0 & D0 & S0) (M1 & D1 & S1) V0 V1 Q0 Q1 s0 s1 HSc G0 G1 Hsq HO level Hl Hk HB HBe HBs Hsb.
    destruct (mul_relin rQ rP (m + 1) HP EN levelK levelP level0 level1 lo B0 B1 rlk square c0 c1 out scratch sk s M0 M1 DQ Be Bs
      Hs KL K0 K1 F0 F1 D0 D1 G0 G1 Hsq HO Hl Hk HB HBe HBs Hsb) as (c & E & X1 & X2 & X3 & X4 & X5 & X6).
    destruct (scale_product _ _ Q0 Q1 HSc) as [Y1 Y2]. exists c. split; [exact X1|]. split; [exact X2|]. split; [exact X3|]. split; [exact X4|]. split; [rewrite X4; exact Y1|].
    eexists. split; [exact X6|]. rewrite X4. apply sf_noise; [exact HN|apply sf_product; assumption|].
    intros k Hk'. apply switch_real; [|exact X5|exact Hk']. apply prefix_pos. apply HP.
  Qed.
  Lemma msg_ckks_rotate levelK levelP level0 level B rtks key k c out scratch sk s v eps DQ Be Bs : (L <= m)%nat ->
    secret rQ (m + 1) sk s -> key_levels rQ rP levelK levelP -> ct_ok rQ level0 B c -> fits rQ B -> words rQ level0 (fun q => 2 * q)%Z (comp c 1) -> carries rQ m L sk c v eps ->
    ctDegree c = 1%nat -> shaped 1 level out -> (level <= level0)%nat -> (level <= levelK)%nat ->
    let g := GaloisElementForColumnRotationBy rQ k in (k <> 0)%Z -> rtks g = Some key -> rotation_key rQ rP (m + 1) levelK levelP g key s Be ->
    blocks_below rQ level levelP DQ -> (0 <= Be)%Z -> (0 <= Bs)%Z -> pbound n Bs s ->
    exists c', Rotate rQ rP levelP rtks k false c out scratch = Some c' /\ ct_ok rQ level B c' /\ ctDegree c' = 1%nat /\ ctScale c' = ctScale c /\
      carries rQ m L sk c' (fun j => v (Z.to_nat ((Z.of_nat j + k) mod 2 ^ Z.of_nat L))) (eps + INR n * switch_size rQ rP level levelP DQ Be Bs).
  Proof.
    intros HL Hs KL K F W2 (P & D & SS) G HO Hl Hlk g Hk0 Hr Hk HB HBe HBs Hsb.
    destruct (rotate_correct rQ rP (m + 1) HP EN levelK levelP level0 level B rtks key k c out scratch sk s P DQ Be Bs
      Hs KL K F W2 D G HO Hl Hlk Hk0 Hr Hk HB HBe HBs Hsb) as (c' & E & X1 & X2 & X3 & X4 & X5 & X6).
    exists c'. split; [exact X1|]. split; [exact X2|]. split; [exact X3|]. split; [exact X4|]. eexists. split; [exact X6|]. rewrite X4. apply sf_noise; [exact HN| |].
    - apply (sf_gal m L rQ P k); try assumption. apply HP.
    - intros i Hi. apply switch_real; [apply prefix_pos; apply HP|exact X5|exact Hi].
  Qed.
  Lemma msg_ckks_conjugate levelK levelP level0 level B rtks key c out scratch sk s v eps DQ Be Bs :
    secret rQ (m + 1) sk s -> key_levels rQ rP levelK levelP -> ct_ok rQ level0 B c -> fits rQ B -> words rQ level0 (fun q => 2 * q)%Z (comp c 1) -> carries rQ m L sk c v eps ->
    ctDegree c = 1%nat -> shaped 1 level out -> (level <= level0)%nat -> (level <= levelK)%nat ->
    let g := (2 * Z.of_nat (rN rQ) - 1)%Z in rtks g = Some key -> rotation_key rQ rP (m + 1) levelK levelP g key s Be ->
    blocks_below rQ level levelP DQ -> (0 <= Be)%Z -> (0 <= Bs)%Z -> pbound n Bs s ->
    exists c', Conjugate rQ rP levelP rtks false c out scratch = Some c' /\ ct_ok rQ level B c' /\ ctDegree c' = 1%nat /\ ctScale c' = ctScale c /\
      carries rQ m L sk c' (fun j => Cconj (v j)) (eps + INR n * switch_size rQ rP level levelP DQ Be Bs).
  Proof.
    intros Hs KL K F W2 (P & D & SS) G HO Hl Hlk g Hr Hk HB HBe HBs Hsb.
    destruct (conjugate_correct rQ rP (m + 1) HP EN levelK levelP level0 level B rtks key c out scratch sk s P DQ Be Bs
      Hs KL K F W2 D G HO Hl Hlk Hr Hk HB HBe HBs Hsb) as (c' & E & X1 & X2 & X3 & X4 & X5 & X6).
    exists c'. split; [exact X1|]. split; [exact X2|]. split; [exact X3|]. split; [exact X4|]. eexists. split; [exact X6|]. rewrite X4. apply sf_noise; [exact HN| |].
    - replace (Z.to_nat (2 * Z.of_nat (rN rQ) - 1)) with (2 * rN rQ - 1)%nat by (clear -HN; unfold n in HN; lia). apply sf_conj; [exact HN|exact SS].
    - intros i Hi. apply switch_real; [apply prefix_pos; apply HP|exact X5|exact Hi].
  Qed.
End Keys.
