(** Encoding and decoding of slots. *)
From Coq Require Import ZArith Reals Lra Lia List Arith.
From Flocq Require Import Core.Core IEEE754.BinarySingleNaN.
From Coquelicot Require Import Complex.
From Verif Require Import Word ModRed Arith PolySpec PolyProofs Ring RingProofs NTT NTTProofs RingOps RNSSpec Repr RowProofs OpsProofs CRT Scaling ScalingMore Float64 FloatProofs
  Rlwe RlweSpec Ckks CkksSpec CkksFloat Fft FftSpec FftProofs FftRing FftTop SlotSpec SlotProofs Encoder EncSpec EncFloat EncNtt EncCoeffs EncFft.
Import ListNotations.
Open Scope R_scope.

(** ** The exact transforms *)
Section Exact.
  Variables (m L : nat).
  Hypothesis HL : (L <= m)%nat.
  Notation M := (2 ^ (m + 2))%nat.
  Notation efft v := (SpecialFFTVec Cplus Cminus Cmult (RtoC 0) v (2 ^ L) M (rotGroup M) (exact_roots M)).
  Notation eifft v := (SpecialiFFTVec Cplus Cminus Cmult (RtoC 0) (Cmult (RtoC (/ 2 ^ L))) v (2 ^ L) M (rotGroup M) (exact_roots M)).

  Lemma of_nat_C n : of_nat (RtoC 0) (RtoC 1) Cplus n = RtoC (INR n).
  Proof. induction n as [|n IH]; [reflexivity|]. cbn [of_nat]. rewrite IH, S_INR, RtoC_plus. ring. Qed.
  Lemma INR_2 : INR (2 ^ L) = 2 ^ L.
  Proof. rewrite pow_INR. reflexivity. Qed.
  Lemma exact_inverse v : (2 ^ L <= length v)%nat -> efft (eifft v) = v.
  Proof.
    apply (fft_ifft (RtoC 0) (RtoC 1) Cplus Cmult Cminus Copp C_ring_theory m L _ _ (exact_root_table m) HL _ (RtoC (/ 2 ^ L))); [reflexivity|].
    rewrite of_nat_C, INR_2, <- RtoC_mult. f_equal. apply Rinv_l. apply pow_nonzero. lra.
  Qed.
  Lemma Cmod_csum n f e : (forall i, (i < n)%nat -> Cmod (f i) <= e) -> Cmod (csum n f) <= INR n * e.
  Proof.
    induction n as [|n IH]; intros H; [cbn; rewrite Cmod_R, Rabs_R0; lra|]. rewrite S_INR. unfold csum in *. cbn [bsum]. apply Rle_trans with (1 := Cmod_triangle _ _).
    pose proof (IH ltac:(intros; apply H; lia)). pose proof (H n ltac:(lia)). lra.
  Qed.
  Lemma Cmod_cis x : Cmod (cis x) = 1.
  Proof. unfold cis, Cmod. cbn [fst snd]. rewrite <- sqrt_1. f_equal. rewrite Rplus_comm, <- (sin2_cos2 x). unfold Rsqr. ring. Qed.
  (** Transforms of vectors that are close, up to a factor. *)
  Lemma exact_near x y s e k : (2 ^ L <= length x)%nat -> (2 ^ L <= length y)%nat -> (k < 2 ^ L)%nat ->
    (forall t, (t < 2 ^ L)%nat -> Cmod (nth t x (RtoC 0) - s * nth t y (RtoC 0))%C <= e) ->
    Cmod (nth k (efft x) (RtoC 0) - s * nth k (efft y) (RtoC 0))%C <= 2 ^ L * e.
  Proof.
    intros Hx Hy Hk H.
    destruct (special_fft (RtoC 0) (RtoC 1) Cplus Cmult Cminus Copp C_ring_theory m L _ _ (exact_root_table m) HL x Hx) as [_ [X _]].
    destruct (special_fft (RtoC 0) (RtoC 1) Cplus Cmult Cminus Copp C_ring_theory m L _ _ (exact_root_table m) HL y Hy) as [_ [Y _]].
    rewrite X, Y by exact Hk. unfold eval_poly. set (w := rpow _ _ _ _).
    replace (Cminus _ _) with (csum (2 ^ L) (fun t => Cmult (Cminus (nth t x (RtoC 0)) (Cmult s (nth t y (RtoC 0)))) (rpow (RtoC 1) Cmult w t))).
    - rewrite <- INR_2. apply Cmod_csum. intros t Ht. rewrite Cmod_mult. unfold w. rewrite !cis_pow, Cmod_cis, Rmult_1_r. apply H. exact Ht.
    - clearbody w. clear. induction (2 ^ L)%nat as [|n IH]; [cbn; ring|]. unfold csum in *. cbn [bsum]. rewrite IH. unfold Cminus. ring.
  Qed.
End Exact.

Section Enc.
  Variables (m L : nat) (delta : R) (roots : list complex128).
  Notation M := (2 ^ (m + 2))%nat.
  Hypothesis HR : roots_near M delta roots.
  Hypothesis HL : (L <= m)%nat.
  Notation rot := (rotGroup M).
  Notation rho := (delta + / 2 ^ 49).
  Let G := 2 * (1 + rho).
  Notation f n := ((1 + rho) ^ n).
  Lemma rho_pos : / 2 ^ 49 <= rho /\ 0 < / 2 ^ 49.
  Proof. destruct HR as [[D1 D2] _]. rewrite inv2_49. lra. Qed.
  Lemma f_mono a b : (a <= b)%nat -> 1 <= f a <= f b.
  Proof.
    intros H. destruct rho_pos. split; [apply pow_R1_Rle; lra|]. apply Rle_pow; [lra|exact H].
  Qed.
  Lemma G_pow n : G ^ n = 2 ^ n * f n.
  Proof. unfold G. apply Rpow_mult_distr. Qed.
  Lemma big_900 : IZR (2 ^ 900) * 8 <= bpow radix2 987 /\ 0 < IZR (2 ^ 900).
  Proof.
    change (IZR (2 ^ 900)) with (IZR (Zpower radix2 900)). rewrite (IZR_Zpower radix2 900) by discriminate. split; [|apply bpow_gt_0].
    apply Rle_trans with (bpow radix2 (3 + 900)); [rewrite bpow_plus; change (bpow radix2 3) with 8; lra|apply bpow_le; lia].
  Qed.
  Lemma pow2L : 1 <= 2 ^ L.
  Proof. apply pow_R1_Rle. lra. Qed.

  Lemma divisor : 2 ^ L <= IZR (2 ^ 900) -> is_finite (f64_of_Z (Z.of_nat (2 ^ L))) = true /\ B2R (f64_of_Z (Z.of_nat (2 ^ L))) = 2 ^ L.
  Proof.
    intros H. assert (E : 2 ^ L = bpow radix2 (Z.of_nat L)). { rewrite bpow_powerRZ. rewrite <- pow_powerRZ. reflexivity. }
    assert (EZ : IZR (Z.of_nat (2 ^ L)) = 2 ^ L) by (rewrite <- INR_IZR_INZ; apply INR_2).
    assert (Hl : (Z.of_nat L <= 900)%Z).
    { rewrite E in H. change (IZR (2 ^ 900)) with (IZR (Zpower radix2 900)) in H. rewrite (IZR_Zpower radix2 900) in H by discriminate. apply le_bpow in H. exact H. }
    destruct (of_Z_big (Z.of_nat (2 ^ L))) as [B F].
    - rewrite EZ, E, Rabs_pos_eq by apply bpow_ge_0. apply bpow_le. lia.
    - split; [exact F|]. rewrite B, EZ, E. apply round_generic; [apply _|]. apply fmt_bpow. lia.
  Qed.

  (** The inverse transform of numbers. *)
  Lemma ifft_numbers A zs ws : 1 <= A -> 2 ^ L * A <= IZR (2 ^ 900) -> f (S L) <= 2 -> (2 ^ L <= length zs)%nat -> (2 ^ L <= length ws)%nat ->
    (forall k, (k < 2 ^ L)%nat -> cfinite (nth k zs c_zero) /\ Cmod (nth k ws (RtoC 0)) <= A /\ cnum (nth k zs c_zero) = nth k ws (RtoC 0)) ->
    all_close L A (A * f (S L)) (SpecialiFFTVec c_add c_sub c_mul c_zero (fun x => c_div_real x (f64_of_Z (Z.of_nat (2 ^ L)))) zs (2 ^ L) M rot roots)
      (SpecialiFFTVec Cplus Cminus Cmult (RtoC 0) (Cmult (RtoC (/ 2 ^ L))) ws (2 ^ L) M rot (exact_roots M)).
  Proof.
    intros HA HB Hf Hz Hw HV. assert (P := pow2L). destruct big_900 as [T1 T2]. destruct (f_mono L (S L) ltac:(lia)) as [F1 F2].
    assert (PA : 2 ^ L <= 2 ^ L * A) by (rewrite <- (Rmult_1_r (2 ^ L)) at 1; apply Rmult_le_compat_l; lra).
    assert (PF : 2 ^ L * A * f L <= 2 * IZR (2 ^ 900)) by (rewrite (Rmult_comm 2); apply Rmult_le_compat; lra || (apply Rmult_le_pos; lra)).
    destruct (divisor ltac:(lra)) as [Fd Ed].
    apply (ifft_close m L delta roots HR HL A A).
    - lra.
    - fold G. rewrite G_pow. replace (A * (2 ^ L * f L)) with (2 ^ L * A * f L) by ring. lra.
    - exact Hz.
    - exact Hw.
    - intros k Hk. destruct (HV k Hk) as (V1 & V2 & V3). split; [exact V1|]. split; [exact V2|]. rewrite V3. unfold Cminus. rewrite Cplus_opp_r, Cmod_R, Rabs_R0. lra.
    - fold G. intros z w (Fz & Aw & Ez). rewrite G_pow in Ez. assert (Pi : 0 < / 2 ^ L) by (apply Rinv_0_lt_compat; lra).
      assert (Zb : Cmod (cnum z) <= 2 ^ L * f L * A) by (apply Rle_trans with (1 := Cmod_near _ _ _ Ez); lra).
      assert (Zq : Cmod (cnum z) / 2 ^ L <= f L * A).
      { apply Rmult_le_reg_r with (2 ^ L); [lra|]. unfold Rdiv. rewrite Rmult_assoc, Rinv_l by lra. lra. }
      assert (FA : f L * A <= 2 ^ L * f L * A) by (rewrite Rmult_assoc; rewrite <- (Rmult_1_l (f L * A)) at 1; apply Rmult_le_compat_r; [apply Rmult_le_pos; lra|lra]).
      assert (TT : bpow radix2 987 <= top) by (apply bpow_le; lia).
      destruct (c_div_near z _ Fz Fd) as [N1 N2]; rewrite ?Ed; try lra. rewrite Ed in N2. split; [exact N1|]. split.
      + rewrite Cmod_mult, Cmod_R, Rabs_pos_eq by lra. apply Rmult_le_reg_l with (2 ^ L); [lra|]. rewrite <- Rmult_assoc, Rinv_r by lra. lra.
      + assert (SS : Cmod (cnum z / RtoC (2 ^ L) - RtoC (/ 2 ^ L) * w)%C <= f L * A - A).
        { replace (cnum z / RtoC (2 ^ L) - RtoC (/ 2 ^ L) * w)%C with (Cmult (RtoC (/ 2 ^ L)) (Cminus (cnum z) w)).
          - rewrite Cmod_mult, Cmod_R, Rabs_pos_eq by lra. apply Rmult_le_reg_l with (2 ^ L); [lra|]. rewrite <- Rmult_assoc, Rinv_r by lra. lra.
          - rewrite RtoC_inv by lra. unfold Cdiv, Cminus. ring. }
        apply Rle_trans with (1 := Cmod_via _ _ _ _ _ N2 SS). pose proof eta_small as ES. rewrite u64f_val.
        replace (A * f (S L) - A) with (f L * A + rho * (f L * A) - A) by (cbn [pow]; ring).
        assert (X : 1 <= f L * A) by (apply Rle_trans with (f L * 1); [lra|apply Rmult_le_compat_l; lra]).
        assert (/ 562949953421312 * (f L * A) <= rho * (f L * A)) by (apply Rmult_le_compat_r; [lra|rewrite <- inv2_49; apply rho_pos]). lra.
  Qed.

  (** The transform of numbers known up to a relative error. *)
  Lemma fft_numbers A zs ws : 1 <= A -> 2 ^ L * A <= IZR (2 ^ 900) -> f (S L) <= 2 -> (2 ^ L <= length zs)%nat -> (2 ^ L <= length ws)%nat ->
    all_close L A (A * (1 + rho)) zs ws ->
    forall k, (k < 2 ^ L)%nat -> let z := nth k (SpecialFFTVec c_add c_sub c_mul c_zero zs (2 ^ L) M rot roots) c_zero in
      cfinite z /\ Cmod (cnum z - nth k (SpecialFFTVec Cplus Cminus Cmult (RtoC 0) ws (2 ^ L) M rot (exact_roots M)) (RtoC 0))%C <= 2 ^ L * A * growth delta (S L).
  Proof.
    intros HA HB Hf Hz Hw HC k Hk z. assert (P := pow2L). destruct big_900 as [T1 T2]. destruct (f_mono L (S L) ltac:(lia)) as [F1 F2].
    assert (R := rho_pos).
    destruct (fft_close m L delta roots HR HL A (A * (1 + rho)) zs ws) with (k := k) as (C1 & C2 & C3); try assumption.
    - split; [exact HA|]. rewrite <- (Rmult_1_r A) at 1. apply Rmult_le_compat_l; lra.
    - fold G. rewrite G_pow. replace (A * (1 + rho) * (2 ^ L * f L)) with (2 ^ L * A * f (S L)) by (cbn [pow]; ring).
      apply Rle_trans with (IZR (2 ^ 900) * 2); [apply Rmult_le_compat; try lra; apply Rmult_le_pos; lra|lra].
    - split; [exact C1|]. apply Rle_trans with (1 := C3). fold G. rewrite G_pow. unfold growth. apply Req_le. cbn [pow]. ring.
  Qed.
End Enc.

(** ** Encoding *)
Lemma nth_pad {T} (a b : list T) n k d : (length a <= n)%nat -> (k < n)%nat -> nth k (a ++ repeat d (n - length a) ++ b) d = nth k a d.
Proof.
  intros H Hk. destruct (Nat.lt_ge_cases k (length a)) as [Ha|Ha]; [apply app_nth1; exact Ha|]. rewrite app_nth2 by exact Ha. rewrite (nth_overflow a) by exact Ha.
  rewrite app_nth1 by (rewrite repeat_length; lia). apply nth_repeat.
Qed.
Lemma nth_map_cnum l k : nth k (map cnum l) (RtoC 0) = cnum (nth k l c_zero).
Proof. change (RtoC 0) with (cnum c_zero). apply map_nth. Qed.
Lemma cnum_zero : cfinite c_zero /\ cnum c_zero = RtoC 0.
Proof. split; [split; reflexivity|reflexivity]. Qed.

Lemma inflate_one n q X : peq n q (inflate 1 X) X.
Proof. intros k Hk. unfold inflate. rewrite Nat.mod_1_r, Nat.div_1_r. reflexivity. Qed.

(** The transform of the prefix, sparse or full. *)
Lemma prefix_ntt r m L level (B : Z -> Z) p X : built_ring 8 r -> rN r = (2 ^ (m + 1))%nat -> (3 <= L <= m)%nat ->
  (forall i, (i <= level)%nat -> B (mq (rmod r i)) + 4 * mq (rmod r i) <= W)%Z -> prefix_repr r (2 * 2 ^ L) level B p X ->
  rns_ntt r (m + 1) level canon (NttAndMontgomeryLvl r level L false p) (inflate (2 ^ (m - L)) X).
Proof.
  intros Hr EN HL HB HX. destruct (Nat.eq_dec L m) as [->|NE].
  - rewrite Nat.sub_diag. change (2 ^ 0)%nat with 1%nat. unfold NttAndMontgomeryLvl.
    replace (Nat.div2 (rN r)) with (2 ^ m)%nat by (rewrite EN, Nat.add_comm; change (1 + m)%nat with (S m); rewrite div2_pow; reflexivity).
    rewrite Nat.eqb_refl. cbv zeta.
    assert (E2 : (2 * 2 ^ m = rN r)%nat) by (rewrite EN, Nat.add_comm; reflexivity).
    assert (F : rns_repr r level B p X).
    { destruct HX as (H1 & H2 & H3). split; [exact H1|]. split; [exact H2|]. intros i Hi. destruct (H3 i Hi) as [H4 H5]. rewrite E2 in H5. rewrite firstn_all2 in H5 by lia. exact H5. }
    apply (ntt_peq r (m + 1) EN level canon _ X).
    + intros i Hi k Hk. symmetry. apply (inflate_one (rN r)). exact Hk.
    + apply (t_ntt r (m + 1) (built_2 r Hr) EN level B p p X); [|exact F]. destruct F as (Hl & _). intros i Hi. split; [apply HB; exact Hi|]. destruct (built_8 r Hr i ltac:(lia)). lia.
  - assert (SN := sparse_ntt r (m + 1) level L false B p X Hr EN ltac:(lia) ltac:(lia) HB HX).
    replace (rN r / (2 * 2 ^ L))%nat with (2 ^ (m - L))%nat in SN.
    2:{ rewrite EN. replace (m + 1)%nat with ((m - L) + S L)%nat by lia. rewrite Nat.pow_add_r, (Nat.pow_succ_r' 2 L). symmetry. apply Nat.div_mul. assert (2 ^ L <> 0)%nat by (apply Nat.pow_nonzero; lia). lia. }
    revert SN. apply (ntt_peq r (m + 1) EN level canon). intros i Hi k Hk. unfold pscale. rewrite Z.mul_1_l. reflexivity.
Qed.

Lemma inflate_sparse N gap X : sparse N gap (inflate gap X).
Proof. intros i _ Hi. unfold inflate. destruct (Nat.eqb_spec (i mod gap) 0); [contradiction|reflexivity]. Qed.
Lemma inflate_at gap X j : (0 < gap)%nat -> inflate gap X (j * gap)%nat = X j.
Proof. intros H. unfold inflate. rewrite Nat.mod_mul, Nat.div_mul by lia. reflexivity. Qed.

Lemma encode_slots m L r delta roots buf vals pt level A : built_ring 8 r -> encoder_shape m L r delta roots buf -> (3 <= L)%nat -> (16 <= length buf)%nat ->
  pt_shape r level pt -> scale_ok (ptScale pt) -> values_ok L A vals -> 4 * (B2R (ptScale pt) * A) <= IZR (2 ^ 64) -> growth delta (L + 2) <= 1 ->
  exists pt' P, Encode r roots buf vals pt L = Some pt' /\ ptScale pt' = ptScale pt /\ ptNTT pt' = ptNTT pt /\ pt_shape r level pt' /\
    rns_ntt r (m + 1) level canon (ptV pt') P /\ sparse (rN r) (2 ^ (m - L)) P /\
    (forall i, (i < rN r)%nat -> Rabs (IZR (P i)) <= 2 * (B2R (ptScale pt) * A) + 2) /\
    (forall k, (k < 2 ^ L)%nat -> Cmod (nth k (packed (rN r) (2 ^ L) P) (RtoC 0)) <= 2 * (B2R (ptScale pt) * A) + 2) /\
    forall k, (k < 2 ^ L)%nat -> Cmod (slot (rN r) P k - RtoC (B2R (ptScale pt)) * value_at vals k)%C <= 2 ^ L * (2 + B2R (ptScale pt) * A * growth delta (L + 2)).
Proof.
  intros Hr (EN & HL & LB & HR) H3 H16 Sh [Fs Ps] (V1 & V2 & V3 & V4) HS HG.
  assert (EH : (rN r / 2 = 2 ^ m)%nat) by (rewrite EN, Nat.pow_add_r; change (2 ^ 1)%nat with 2%nat; apply Nat.div_mul; lia).
  assert (E2 : (2 * rN r = 2 ^ (m + 2))%nat) by (rewrite EN; replace (m + 2)%nat with (S (m + 1)) by lia; reflexivity).
  assert (LM : (2 ^ L <= 2 ^ m)%nat) by (apply Nat.pow_le_mono_r; lia).
  assert (L8 : (8 <= 2 ^ L)%nat) by (change 8%nat with (2 ^ 3)%nat; apply Nat.pow_le_mono_r; lia).
  set (s := ptScale pt) in *. set (sv := B2R s) in *.
  set (rho := delta + / 2 ^ 49). assert (RP := rho_pos m delta roots HR). fold rho in RP. assert (F1 := f_mono m delta roots HR (S L) (L + 2) ltac:(lia)). fold rho in F1.
  assert (G2 : (1 + rho) ^ (L + 2) <= 2) by (unfold growth in HG; fold rho in HG; lra).
  unfold Encode, Embed. rewrite (pt_level r level pt Sh). fold s.
  rewrite EH. rewrite (proj2 (Nat.ltb_ge _ _) LM), (proj2 (Nat.ltb_ge _ _) V1). cbn [orb]. unfold ifft. rewrite (proj2 (Nat.ltb_ge _ _) L8). rewrite E2.
  set (zs := vals ++ repeat c_zero (2 ^ L - length vals) ++ skipn (2 ^ L) buf).
  assert (LZ : length zs = (2 ^ m)%nat) by (unfold zs; rewrite !app_length, repeat_length, skipn_length; lia).
  assert (EXT : ((2 ^ L + 15) / 16 * 16 <= length zs)%nat).
  { rewrite LZ. destruct (Nat.eq_dec L 3) as [->|]; [change ((2 ^ 3 + 15) / 16 * 16)%nat with 16%nat; lia|].
    replace (2 ^ L)%nat with (2 ^ (L - 4) * 16)%nat in LM |- * by (change 16%nat with (2 ^ 4)%nat; rewrite <- Nat.pow_add_r; f_equal; lia).
    rewrite Nat.div_add_l by lia. change (15 / 16)%nat with 0%nat. lia. }
  assert (M8 : (length zs mod 8 = 0)%nat). { rewrite LZ. replace (2 ^ m)%nat with (2 ^ (m - 3) * 8)%nat by (change 8%nat with (2 ^ 3)%nat; rewrite <- Nat.pow_add_r; f_equal; lia). apply Nat.mod_mul. lia. }
  destruct (ifft_unrolled c_add c_sub c_mul c_zero (m + 2) (rotGroup (2 ^ (m + 2))) roots (fun x => c_div_real x (f64_of_Z (Z.of_nat (2 ^ L)))) zs L (2 ^ (m + 2))
              H3 ltac:(apply Nat.log2_pow2; lia) EXT M8) as (b & Eb & Lb & Nb).
  rewrite Eb.
  set (ws := map cnum (vals ++ repeat c_zero (2 ^ L - length vals))).
  assert (LW : length ws = (2 ^ L)%nat) by (unfold ws; rewrite map_length, app_length, repeat_length; lia).
  assert (WV : forall k, (k < 2 ^ L)%nat -> nth k ws (RtoC 0) = value_at vals k).
  { intros k Hk. unfold ws. rewrite nth_map_cnum. unfold value_at. f_equal. rewrite <- (app_nil_r (repeat _ _)). apply nth_pad; assumption. }
  assert (VV : forall k, cfinite (nth k vals c_zero) /\ Cmod (cnum (nth k vals c_zero)) <= A).
  { intros k. destruct (Nat.lt_ge_cases k (length vals)) as [H|H]; [apply V2; apply nth_In; exact H|]. rewrite nth_overflow by exact H.
    destruct cnum_zero as [Z1 Z2]. split; [exact Z1|]. rewrite Z2, Cmod_R, Rabs_R0. lra. }
  assert (CL := ifft_numbers m L delta roots HR HL A zs ws V3 V4 ltac:(fold rho; lra) ltac:(lia) ltac:(lia)). fold rho in CL.
  specialize (CL ltac:(intros k Hk; rewrite WV by exact Hk; unfold zs; rewrite nth_pad by assumption; destruct (VV k); split; [assumption|split; [assumption|reflexivity]])).
  assert (IN := exact_inverse m L HL ws ltac:(lia)).
  set (us := SpecialiFFTVec Cplus Cminus Cmult (RtoC 0) _ ws _ _ _ _) in *.
  assert (CB : forall k, (k < 2 ^ L)%nat -> close A (A * (1 + rho) ^ S L) (nth k b c_zero) (nth k us (RtoC 0))) by (intros k Hk; rewrite Nb by exact Hk; apply CL; exact Hk).
  assert (LU : (2 ^ L <= length us)%nat).
  { unfold us. destruct (ifft_nth (RtoC 0) (RtoC 1) Cplus Cmult Cminus Copp C_ring_theory m L _ _ (exact_root_table m) HL (Cmult (RtoC (/ 2 ^ L))) ws 0 ltac:(lia)) as [H _]. rewrite H. lia. }
  clearbody us. clear CL Nb Eb.
  set (fb := firstn (2 ^ L) b). assert (LF : length fb = (2 ^ L)%nat) by (unfold fb; rewrite firstn_length; lia).
  assert (FB : forall k, (k < 2 ^ L)%nat -> nth k fb c_zero = nth k b c_zero) by (intros k Hk; apply nth_firstn; exact Hk).
  unfold complexToFixedPointCRT. set (xs := map fst fb ++ map snd fb). assert (LX : length xs = (2 * 2 ^ L)%nat) by (unfold xs; rewrite app_length, !map_length; transitivity (length fb + length fb)%nat; [reflexivity|lia]).
  assert (X1 : forall k, (k < 2 ^ L)%nat -> nth k xs f64_zero = fst (nth k b c_zero)).
  { intros k Hk. unfold xs. rewrite app_nth1 by (rewrite map_length; rewrite <- LF in Hk; exact Hk). rewrite (nth_map_gen' fst fb k c_zero) by (exact (eq_ind_r (fun n => (k < n)%nat) Hk LF)). rewrite FB by exact Hk. reflexivity. }
  assert (X2 : forall k, (k < 2 ^ L)%nat -> nth (2 ^ L + k) xs f64_zero = snd (nth k b c_zero)).
  { intros k Hk. unfold xs. assert (LM2 : length (map fst fb) = (2 ^ L)%nat) by (rewrite map_length; exact LF). rewrite app_nth2 by lia. replace (2 ^ L + k - length (map fst fb))%nat with k by lia. rewrite (nth_map_gen' snd fb k c_zero) by (exact (eq_ind_r (fun n => (k < n)%nat) Hk LF)). rewrite FB by exact Hk. reflexivity. }
  assert (SB : 0 <= sv) by lra.
  assert (BB : forall k, (k < 2 ^ L)%nat -> cfinite (nth k b c_zero) /\ Cmod (cnum (nth k b c_zero)) <= A * (1 + rho) ^ S L).
  { intros k Hk. destruct (CB k Hk) as (C1 & C2 & C3). split; [exact C1|]. apply Rle_trans with (1 := Cmod_near _ _ _ C3). lra. }
  assert (A2 : A * (1 + rho) ^ S L <= 2 * A) by (rewrite (Rmult_comm 2); apply Rmult_le_compat_l; lra).
  assert (SA : 0 <= sv * A) by (apply Rmult_le_pos; lra).
  assert (EN' : forall t : float64, is_finite t = true -> Rabs (B2R t) <= 2 * A -> encodable t s).
  { intros t Ft Bt. split; [exact Ft|]. cbv zeta. fold sv.
    assert (T : Rabs (B2R t * sv) <= IZR (2 ^ 63)).
    { rewrite Rabs_mult, (Rabs_pos_eq sv) by exact SB. apply Rle_trans with (2 * A * sv); [apply Rmult_le_compat_r; assumption|]. replace (2 * A * sv) with (2 * (sv * A)) by ring.
      change (IZR (2 ^ 64)) with (IZR (2 * 2 ^ 63)) in HS. rewrite mult_IZR in HS. lra. }
    split; [apply Rle_trans with (1 := T); apply IZR_le; apply Z.pow_le_mono_r; lia|]. left. apply Rle_lt_trans with (1 := T). apply IZR_lt. reflexivity. }
  assert (XE : forall x, In x xs -> encodable x s).
  { intros x Hx. unfold xs in Hx. apply in_app_iff in Hx. destruct Hx as [Hx|Hx]; apply in_map_iff in Hx; destruct Hx as (z & <- & Hz);
      apply (In_nth _ _ c_zero) in Hz; destruct Hz as (k & Hk & <-); rewrite LF in Hk; rewrite FB by exact Hk; destruct (BB k Hk) as [[B1 B2] B3]; apply EN'; try assumption.
    - apply Rle_trans with (1 := Cmod_fst (cnum (nth k b c_zero))). lra.
    - apply Rle_trans with (1 := Cmod_snd (cnum (nth k b c_zero))). lra. }
  destruct Sh as (S1 & S2 & S3).
  assert (TN : (2 * 2 ^ L <= rN r)%nat) by (rewrite EN, Nat.add_comm; change (2 ^ (1 + m))%nat with (2 * 2 ^ m)%nat; lia).
  assert (PR := fixed_prefix r (m + 1) level xs s (ptV pt) Hr EN S1 ltac:(lia) S3 ltac:(lia) Fs SB XE).
  assert (AC := fixed_accurate xs s Fs SB XE).
  rewrite LX in PR, AC. set (X := fun k : nat => fixed_int (nth k xs f64_zero) s) in *.
  assert (NT := prefix_ntt r m L level word_bound _ X Hr EN ltac:(lia) ltac:(intros i Hi; apply (word_bound_ok r Hr); lia) PR).
  set (gap := (2 ^ (m - L))%nat) in *. assert (GP : (0 < gap)%nat) by (apply Nat.neq_0_lt_0, Nat.pow_nonzero; lia).
  eexists. exists (inflate gap X). split; [reflexivity|]. cbn [ptScale ptNTT ptV]. split; [reflexivity|]. split; [reflexivity|]. split.
  { split; [exact S1|]. cbn [ptV]. split.
    - unfold NttAndMontgomeryLvl. destruct (Nat.eqb _ _); cbv zeta; unfold NTTLvl, floatToFixedPointCRT; rewrite !lvl_length; lia.
    - intros i Hi. destruct NT as (_ & _ & NT). destruct (NT i Hi) as [NT' _]. rewrite NT'. symmetry. exact EN. }
  split; [exact NT|]. split; [apply inflate_sparse|].
  assert (HN2 : (rN r / 2 = 2 ^ L * gap)%nat) by (rewrite EH; unfold gap; rewrite <- Nat.pow_add_r; f_equal; lia).
  assert (GG : (rN r / (2 * 2 ^ L) = gap)%nat).
  { rewrite <- Nat.div_div by (try lia; apply Nat.pow_nonzero; lia). rewrite HN2, Nat.mul_comm. apply Nat.div_mul. lia. }
  assert (PK : forall k, (k < 2 ^ L)%nat -> nth k (packed (rN r) (2 ^ L) (inflate gap X)) (RtoC 0) = (IZR (X k), IZR (X (2 ^ L + k)%nat))).
  { intros k Hk. unfold packed. rewrite nth_map_seq by exact Hk. rewrite GG, HN2, <- Nat.mul_add_distr_r, !inflate_at by exact GP. reflexivity. }
  assert (E51 : / 2 ^ 51 = / 2251799813685248) by (rewrite (pow_IZR 2 51); reflexivity).
  assert (KEY : forall k, (k < 2 ^ L)%nat -> Cmod (nth k (packed (rN r) (2 ^ L) (inflate gap X)) (RtoC 0) - RtoC sv * nth k us (RtoC 0))%C <= 2 + sv * A * growth delta (L + 2)).
  { intros k Hk. rewrite PK by exact Hk. assert (N1 := AC k ltac:(lia)). assert (N2 := AC (2 ^ L + k)%nat ltac:(lia)). unfold near_product in N1, N2. cbv zeta in N1, N2.
    rewrite X1 in N1 by exact Hk. rewrite X2 in N2 by exact Hk. rewrite E51 in N1, N2. fold sv in N1, N2.
    destruct (CB k Hk) as (C1 & C2 & C3). destruct (BB k Hk) as [_ B3]. assert (B4 := Cmod_fst (cnum (nth k b c_zero))). assert (B5 := Cmod_snd (cnum (nth k b c_zero))).
    set (bk := nth k b c_zero) in *. change (fst (cnum bk)) with (B2R (fst bk)) in B4. change (snd (cnum bk)) with (B2R (snd bk)) in B5.
    set (e := A * (1 + rho) ^ S L) in *.
    assert (R1 : Rabs (B2R (fst bk) * sv) <= sv * e). { rewrite Rabs_mult, (Rabs_pos_eq sv), Rmult_comm by exact SB. apply Rmult_le_compat_l; lra. }
    assert (R2 : Rabs (B2R (snd bk) * sv) <= sv * e). { rewrite Rabs_mult, (Rabs_pos_eq sv), Rmult_comm by exact SB. apply Rmult_le_compat_l; lra. }
    assert (D1 : Cmod (((IZR (X k), IZR (X (2 ^ L + k)%nat)) : C) - RtoC sv * cnum bk)%C <= 1 + 2 * (sv * e + 1) * / 2251799813685248).
    { replace (((IZR (X k), IZR (X (2 ^ L + k)%nat)) : C) - RtoC sv * cnum bk)%C with ((IZR (X k) - B2R (fst bk) * sv, IZR (X (2 ^ L + k)%nat) - B2R (snd bk) * sv) : C).
      - apply Rle_trans with (1 := Cmod_sum _ _). unfold X at 1 2. rewrite X1, X2 by exact Hk. unfold X in N1, N2. rewrite ?X1, ?X2 in N1, N2 by exact Hk. fold bk. fold bk in N1, N2. lra.
      - unfold Cminus, Cplus, Copp, Cmult, RtoC, cnum. cbn [fst snd]. f_equal; ring. }
    assert (D2 : Cmod (RtoC sv * cnum bk - RtoC sv * nth k us (RtoC 0))%C <= sv * (e - A)).
    { replace (RtoC sv * cnum bk - RtoC sv * nth k us (RtoC 0))%C with (Cmult (RtoC sv) (Cminus (cnum bk) (nth k us (RtoC 0)))) by (unfold Cminus; ring).
      rewrite Cmod_mult, Cmod_R, Rabs_pos_eq by exact SB. apply Rmult_le_compat_l; [exact SB|exact C3]. }
    apply Rle_trans with (1 := Cmod_via _ _ _ _ _ D1 D2). unfold growth. fold rho.
    assert (EE : sv * A * ((1 + rho) ^ (L + 2) - 1) = sv * e + rho * (sv * e) - sv * A). { unfold e. replace (L + 2)%nat with (S (S L)) by lia. cbn [pow]. ring. }
    rewrite EE. assert (SE : 0 <= sv * e). { apply Rmult_le_pos; [exact SB|]. unfold e. apply Rmult_le_pos; lra. }
    assert (/ 562949953421312 * (sv * e) <= rho * (sv * e)) by (apply Rmult_le_compat_r; [exact SE|rewrite <- inv2_49; apply RP]). lra. }
  assert (PB : forall k, (k < 2 ^ L)%nat -> Cmod (nth k (packed (rN r) (2 ^ L) (inflate gap X)) (RtoC 0)) <= 2 * (sv * A) + 2).
  { intros k Hk. apply Rle_trans with (1 := Cmod_near _ _ _ (KEY k Hk)). rewrite Cmod_mult, Cmod_R, Rabs_pos_eq by exact SB. destruct (CB k Hk) as (_ & C2 & _).
    assert (sv * Cmod (nth k us (RtoC 0)) <= sv * A) by (apply Rmult_le_compat_l; assumption).
    assert (sv * A * growth delta (L + 2) <= sv * A * 1) by (apply Rmult_le_compat_l; assumption). lra. }
  split; [|split; [exact PB|]].
  - intros i Hi. unfold inflate. destruct (Nat.eqb_spec (i mod gap) 0) as [Ei|Ei]; [|rewrite Rabs_R0; lra].
    assert (Q : (i / gap < 2 * 2 ^ L)%nat). { apply Nat.div_lt_upper_bound; [lia|]. replace (gap * (2 * 2 ^ L))%nat with (rN r); [exact Hi|]. rewrite EN. unfold gap. replace (m + 1)%nat with ((m - L) + S L)%nat by lia. rewrite Nat.pow_add_r. reflexivity. }
    destruct (Nat.lt_ge_cases (i / gap) (2 ^ L)) as [H|H].
    + apply Rle_trans with (2 := PB _ H). rewrite PK by exact H. apply (Cmod_fst (IZR _, IZR _)).
    + assert (H' : (i / gap - 2 ^ L < 2 ^ L)%nat) by lia. apply Rle_trans with (2 := PB _ H'). rewrite PK by exact H'. replace (2 ^ L + (i / gap - 2 ^ L))%nat with (i / gap)%nat by lia. apply (Cmod_snd (IZR _, IZR _)).
  - intros k Hk. assert (TS := transform_slots m L (inflate gap X) HL (inflate_sparse _ _ _)).
    rewrite <- EN in TS.
    assert (LPK : length (packed (rN r) (2 ^ L) (inflate gap X)) = (2 ^ L)%nat) by (unfold packed; rewrite map_length, seq_length; reflexivity).
    assert (NE := exact_near m L HL (packed (rN r) (2 ^ L) (inflate gap X)) us (RtoC sv) (2 + sv * A * growth delta (L + 2)) k ltac:(lia) LU Hk KEY).
    rewrite IN, WV in NE by exact Hk. rewrite TS in NE. rewrite nth_map_seq in NE by exact Hk. exact NE.
Qed.

(** ** Decoding *)
Lemma near_value a s x y : near_quotient a s x -> is_finite y = true -> B2R y = B2R x -> near_quotient a s y.
Proof. intros [_ H] F E. split; [exact F|]. rewrite E. exact H. Qed.
Lemma near_le a s x : near_quotient a s x -> Rabs (IZR a / B2R s) <= IZR (2 ^ 1000) -> Rabs (B2R x) <= top.
Proof.
  intros [_ H] B. cbv zeta in H. rewrite big_Z in *. set (v := IZR a / B2R s) in *.
  assert (E51 : / 2 ^ 51 = / 2251799813685248) by (rewrite (pow_IZR 2 51); reflexivity). rewrite E51 in H.
  replace (B2R x) with (v + (B2R x - v)) by ring. apply Rle_trans with (1 := Rabs_triang _ _).
  assert (E1 : top = 2 * big) by (change 1001%Z with (1 + 1000)%Z; rewrite bpow_plus; reflexivity).
  assert (B1 : 1 <= big) by (change 1 with (bpow radix2 0); apply bpow_le; lia). assert (/ big <= 1) by (rewrite <- Rinv_1; apply Rinv_le; lra).
  assert (0 <= Rabs v) by apply Rabs_pos.
  destruct (Rle_dec 4 big) as [X|X]; [|exfalso; apply X; change 4 with (bpow radix2 2); apply bpow_le; lia].
  lra.
Qed.
(** Two floats as the parts of a complex128. *)
Lemma parts_sum x y : is_finite x = true -> is_finite y = true -> Rabs (B2R x) <= top -> Rabs (B2R y) <= top ->
  let z := c_add (x, f64_zero) (f64_zero, y) in cfinite z /\ B2R (fst z) = B2R x /\ B2R (snd z) = B2R y.
Proof.
  intros Fx Fy Bx By z. assert (Ez : B2R f64_zero = 0) by reflexivity.
  assert (EX : forall t : float64, rnd (B2R t) = B2R t) by (intros t; apply round_generic; [apply _|apply generic_format_B2R]).
  destruct (add_big x f64_zero Fx eq_refl) as [E1 F1]; [rewrite Ez, Rplus_0_r; exact Bx|]. rewrite Ez, Rplus_0_r, EX in E1.
  destruct (add_big f64_zero y eq_refl Fy) as [E2 F2]; [rewrite Ez, Rplus_0_l; exact By|]. rewrite Ez, Rplus_0_l, EX in E2.
  unfold z, c_add. cbn [fst snd]. split; [split; assumption|]. split; assumption.
Qed.

Lemma quotient_close s A a b z : scale_ok s -> 1 <= A -> Cmod ((IZR a, IZR b) : C) <= A * B2R s -> cfinite z ->
  near_quotient a s (fst z) -> near_quotient b s (snd z) -> forall rho, / 2 ^ 49 <= rho ->
  close A (A * (1 + rho)) z (((IZR a, IZR b) : C) / RtoC (B2R s))%C.
Proof.
  intros [Fs Ps] HA HB Fz [_ N1] [_ N2] rho HR. cbv zeta in N1, N2. set (sv := B2R s) in *.
  assert (E51 : / 2 ^ 51 = / 2251799813685248) by (rewrite (pow_IZR 2 51); reflexivity). rewrite E51 in N1, N2. rewrite inv2_49 in HR.
  assert (E : (((IZR a, IZR b) : C) / RtoC sv)%C = ((IZR a / sv, IZR b / sv) : C)).
  { unfold Cdiv, Cinv, Cmult, RtoC. cbn [fst snd]. f_equal; field; lra. }
  assert (MB : Cmod ((IZR a, IZR b) / RtoC sv)%C <= A).
  { rewrite Cmod_div; [|intros X; apply RtoC_inj in X; lra]. rewrite Cmod_R, (Rabs_pos_eq sv) by lra. apply Rmult_le_reg_r with sv; [exact Ps|]. unfold Rdiv. rewrite Rmult_assoc, Rinv_l by lra. lra. }
  split; [exact Fz|]. split; [exact MB|].
  assert (M1 := Cmod_fst ((IZR a, IZR b) / RtoC sv)%C). assert (M2 := Cmod_snd ((IZR a, IZR b) / RtoC sv)%C). rewrite E in *. cbn [fst snd] in M1, M2.
  unfold cnum, Cminus, Cplus, Copp. cbn [fst snd]. apply Rle_trans with (1 := Cmod_sum _ _).
  change (B2R (fst z) + - (IZR a / sv)) with (B2R (fst z) - IZR a / sv). change (B2R (snd z) + - (IZR b / sv)) with (B2R (snd z) - IZR b / sv).
  pose proof eta_small as ES. assert (EE : / IZR (2 ^ 1000) = eta) by (rewrite big_Z; symmetry; apply (bpow_opp radix2 1000)). rewrite EE in N1, N2.
  assert (A * / 562949953421312 <= A * rho) by (apply Rmult_le_compat_l; lra). lra.
Qed.

Lemma decode_any m L r delta roots buf pool pt level P A : built_ring 8 r -> encoder_shape m L r delta roots buf -> (3 <= L -> 16 <= length buf)%nat ->
  pt_shape r level pt -> pool_shape r pool -> scale_ok (ptScale pt) -> rns_dom r (m + 1) level (ptNTT pt) (ptV pt) P ->
  (forall k, (k < rN r)%nat -> decodable (lprod r level) (P k) (ptScale pt)) ->
  1 <= A -> 2 ^ L * A <= IZR (2 ^ 900) -> (forall k, (k < 2 ^ L)%nat -> Cmod (nth k (packed (rN r) (2 ^ L) P) (RtoC 0)) <= A * B2R (ptScale pt)) ->
  growth delta (L + 1) <= 1 ->
  exists out, Decode r roots buf pool pt L = Some out /\ length out = (2 ^ L)%nat /\
    forall k, (k < 2 ^ L)%nat -> cfinite (nth k out c_zero) /\
      Cmod (value_at out k - slot (rN r) (in_gap (2 ^ (m - L)) P) k / RtoC (B2R (ptScale pt)))%C <= 2 ^ L * A * growth delta (L + 1).
Proof.
  intros Hr (EN & HL & LB & HR) H16 Sh Pl Hs HM HD HA HB HP HG.
  assert (EH : (rN r / 2 = 2 ^ m)%nat) by (rewrite EN, Nat.pow_add_r; change (2 ^ 1)%nat with 2%nat; apply Nat.div_mul; lia).
  assert (E2 : (2 * rN r = 2 ^ (m + 2))%nat) by (rewrite EN; replace (m + 2)%nat with (S (m + 1)) by lia; reflexivity).
  assert (LM : (2 ^ L <= 2 ^ m)%nat) by (apply Nat.pow_le_mono_r; lia).
  set (gap := (2 ^ (m - L))%nat) in *. assert (GP : (0 < gap)%nat) by (apply Nat.neq_0_lt_0, Nat.pow_nonzero; lia).
  assert (HN2 : (2 ^ m = 2 ^ L * gap)%nat) by (unfold gap; rewrite <- Nat.pow_add_r; f_equal; lia).
  assert (P2 : (2 ^ L <> 0)%nat) by (apply Nat.pow_nonzero; lia).
  assert (GG : (rN r / 2 / 2 ^ L = gap)%nat) by (rewrite EH, HN2, Nat.mul_comm; apply Nat.div_mul; exact P2).
  assert (G2 : (rN r / (2 * 2 ^ L) = gap)%nat) by (rewrite <- Nat.div_div by lia; exact GG).
  assert (NN : (rN r = 2 * (2 ^ L * gap))%nat) by (rewrite <- HN2, EN, Nat.add_comm; reflexivity).
  set (s := ptScale pt) in *. set (sv := B2R s) in *. set (rho := delta + / 2 ^ 49). assert (RP := rho_pos m delta roots HR). fold rho in RP.
  unfold Decode. rewrite EH, (proj2 (Nat.ltb_ge _ _) LM). rewrite (pt_level r level pt Sh). fold s. set (p := to_pool r pt pool).
  assert (IX : forall i, (i < 2 ^ L)%nat -> (i * gap < rN r)%nat /\ (2 ^ m + i * gap < rN r)%nat) by (intros i Hi; rewrite NN, HN2; split; nia).
  assert (PK : forall k, (k < 2 ^ L)%nat -> nth k (packed (rN r) (2 ^ L) P) (RtoC 0) = (IZR (P (k * gap)%nat), IZR (P (2 ^ m + k * gap)%nat))).
  { intros k Hk. unfold packed. rewrite nth_map_seq by exact Hk. rewrite G2, EH. reflexivity. }
  assert (PAIR : forall k, (k < 2 ^ L)%nat -> Rabs (IZR (P (k * gap)%nat)) <= A * sv /\ Rabs (IZR (P (2 ^ m + k * gap)%nat)) <= A * sv).
  { intros k Hk. specialize (HP k Hk). rewrite PK in HP by exact Hk. split; apply Rle_trans with (2 := HP); [apply (Cmod_fst (IZR _, IZR _))|apply (Cmod_snd (IZR _, IZR _))]. }
  assert (ATOP : 4 * A <= top).
  { assert (Q := pow2L L). destruct (big_900 m L HL) as [Q1 Q2]. assert (bpow radix2 987 <= top) by (apply bpow_le; lia).
    assert (A <= 2 ^ L * A) by (apply Rle_trans with (1 * A); [lra|apply Rmult_le_compat_r; lra]).
    apply Rle_trans with (IZR (2 ^ 900) * 8); [|lra]. generalize dependent (IZR (2 ^ 900)). intros. lra. }
  (* the complex numbers *)
  assert (BUF : exists b, match level with O => polyToComplexNoCRT r (prow p 0) buf s (2 ^ L) | S _ => Some (polyToComplexCRT r level p buf s (2 ^ L)) end = Some b /\
    length b = (2 ^ m)%nat /\ forall i, (i < 2 ^ L)%nat -> cfinite (nth i b c_zero) /\ near_quotient (P (i * gap)%nat) s (fst (nth i b c_zero)) /\ near_quotient (P (2 ^ m + i * gap)%nat) s (snd (nth i b c_zero))).
  { destruct level as [|lev].
    - set (w := fun k => word_float (mq (rmod r 0)) (nth k (prow p 0) 0%Z)).
      set (l0 := map (fun i => c_add (w (i * gap)%nat, f64_zero) (f64_zero, w (2 ^ m + i * gap)%nat)) (seq 0 (2 ^ L)) ++ skipn (2 ^ L) buf).
      assert (LL : length l0 = (2 ^ m)%nat) by (unfold l0; rewrite app_length, map_length, seq_length, skipn_length; lia).
      assert (M8 : (length l0 mod 8 = 0)%nat).
      { rewrite LL. assert (M3 : (3 <= m)%nat).
        { destruct (built_L r (m + 1) (built_2 r Hr) EN). lia. }
        replace (2 ^ m)%nat with (2 ^ (m - 3) * 8)%nat by (change 8%nat with (2 ^ 3)%nat; rewrite <- Nat.pow_add_r; f_equal; lia). apply Nat.mod_mul. lia. }
      assert (PE : polyToComplexNoCRT r (prow p 0) buf s (2 ^ L) = if Nat.eqb (length l0 mod 8) 0 then Some (map (fun x => c_div_real x s) l0) else None).
      { unfold polyToComplexNoCRT. rewrite GG, EH. reflexivity. }
      rewrite PE, M8. cbn [Nat.eqb]. eexists. split; [reflexivity|]. rewrite map_length. split; [exact LL|].
      destruct (pool_repr r (m + 1) 0 pt pool P Hr EN Sh Pl HM) as [(Hl & _ & PR) _]. destruct (PR 0%nat ltac:(lia)) as [_ PR']. destruct (built_8 r Hr 0 Hl) as [Q1 Q2].
      assert (O : Z.odd (mq (rmod r 0)) = true) by (apply (wf_odd (m + 1)); apply (built_wf r (m + 1) (built_2 r Hr) EN); exact Hl).
      assert (WF : forall k, (k < rN r)%nat -> is_finite (w k) = true /\ B2R (w k) = rnd (IZR (P k)) /\ Rabs (B2R (w k)) <= bpow radix2 65 /\ near_quotient (P k) s (f64_div (w k) s)).
      { intros k Hk. destruct (HD k Hk) as (D1 & D2 & D3). destruct (PR' k Hk) as [C1 C2]. unfold canon in C1. rewrite lprod_0 in D1 by exact Hl.
        destruct (word_float_spec (mq (rmod r 0)) (nth k (prow p 0) 0%Z) (P k) ltac:(lia) O C1 C2 D1) as [W1 W2]. split; [exact W1|]. split; [exact W2|]. split.
        - fold (w k) in W2. rewrite W2. apply abs_round_le_generic; try apply _; [apply fmt_bpow; lia|]. rewrite <- abs_IZR. change (bpow radix2 65) with (IZR (2 ^ 65)). apply IZR_le.
          assert (W < 2 ^ 65)%Z by reflexivity. lia.
        - apply near_div; assumption. }
      intros i Hi. destruct (IX i Hi) as [I1 I2]. destruct (WF _ I1) as (W1 & W2 & W3 & W4). destruct (WF _ I2) as (U1 & U2 & U3 & U4).
      rewrite (nth_map_gen' _ l0 i c_zero) by lia. unfold l0. rewrite app_nth1 by (rewrite map_length, seq_length; exact Hi). rewrite nth_map_seq by exact Hi.
      assert (T65 : bpow radix2 65 + bpow radix2 65 <= top). { apply Rle_trans with (bpow radix2 (1 + 65)); [rewrite bpow_plus; change (bpow radix2 1) with 2; lra|apply bpow_le; lia]. }
      assert (T0 : 0 < bpow radix2 65) by apply bpow_gt_0.
      destruct (parts_sum (w (i * gap)%nat) (w (2 ^ m + i * gap)%nat) W1 U1 ltac:(lra) ltac:(lra)) as (Z1 & Z2 & Z3).
      set (z := c_add _ _) in *. destruct Hs as [Fs Ps]. fold sv in Ps. destruct Z1 as [Z11 Z12].
      destruct (HD _ I1) as (_ & _ & D3). destruct (HD _ I2) as (_ & _ & D3').
      assert (Y1 := near_le _ _ _ W4 D3). assert (Y2 := near_le _ _ _ U4 D3').
      (* the quotients *)
      destruct PAIR with (1 := Hi) as [PA1 PA2].
      assert (QB : forall k, (k < rN r)%nat -> Rabs (IZR (P k)) <= A * sv -> Rabs (B2R (w k) / sv) <= 2 * A /\ Rabs (B2R (w k)) <= bpow radix2 65).
      { intros k Hk Bk. destruct (WF k Hk) as (_ & Ew & E65 & _). split; [|exact E65].
        assert (E1 : Rabs (B2R (w k)) <= 2 * Rabs (IZR (P k))).
        { rewrite Ew. destruct (Z.eq_dec (P k) 0) as [->|Na]; [rewrite round_0 by apply _; rewrite Rabs_R0; lra|].
          assert (X1 := rnd_err (IZR (P k))). rewrite u64f_val in X1. assert (G1 : 1 <= Rabs (IZR (P k))) by (rewrite <- abs_IZR; apply IZR_le; lia).
          assert (bpow radix2 (-1022) <= 1) by (change 1 with (bpow radix2 0); apply bpow_le; lia). specialize (X1 ltac:(lra)).
          replace (rnd (IZR (P k))) with (IZR (P k) + (rnd (IZR (P k)) - IZR (P k))) by ring. apply Rle_trans with (1 := Rabs_triang _ _). lra. }
        unfold Rdiv. rewrite Rabs_mult, (Rabs_pos_eq (/ sv)) by (apply Rlt_le, Rinv_0_lt_compat; exact Ps).
        apply Rmult_le_reg_r with sv; [exact Ps|]. rewrite Rmult_assoc, Rinv_l by (apply Rgt_not_eq; exact Ps). lra. }
      destruct (QB _ I1 PA1) as [QA1 _]. destruct (QB _ I2 PA2) as [QA2 _]. clear QB.
      assert (CZ : Cmod (cnum z) <= Rabs (B2R (w (i * gap)%nat)) + Rabs (B2R (w (2 ^ m + i * gap)%nat))) by (unfold cnum; rewrite Z2, Z3; apply Cmod_sum).
      assert (Pi : 0 < / sv) by (apply Rinv_0_lt_compat; exact Ps).
      destruct (c_div_parts z s (conj Z11 Z12) Fs Ps) as (V1 & V2 & _ & _).
      + fold sv. apply Rle_trans with (4 * A); [|lra]. unfold Rdiv in *. rewrite Rabs_mult, (Rabs_pos_eq (/ sv)) in QA1, QA2 by lra.
        apply Rle_trans with ((Rabs (B2R (w (i * gap)%nat)) + Rabs (B2R (w (2 ^ m + i * gap)%nat))) * / sv); [apply Rmult_le_compat_r; lra|lra].
      + lra.
      + assert (V3 : B2R (fst (c_div_real z s)) = rnd (B2R (fst z) / B2R s)) by (change (B2R (fst (c_div_real z s))) with (fst (cnum (c_div_real z s))); rewrite V2; reflexivity).
        assert (V4 : B2R (snd (c_div_real z s)) = rnd (B2R (snd z) / B2R s)) by (change (B2R (snd (c_div_real z s))) with (snd (cnum (c_div_real z s))); rewrite V2; reflexivity).
        rewrite Z2 in V3. rewrite Z3 in V4. fold sv in V3, V4. split; [exact V1|]. destruct V1 as [V11 V12].
        destruct (div_big (w (i * gap)%nat) s W1) as [D1 _]; [fold sv; lra|fold sv; lra|]. destruct (div_big (w (2 ^ m + i * gap)%nat) s U1) as [D2 _]; [fold sv; lra|fold sv; lra|]. fold sv in D1, D2.
        split; [apply near_value with (1 := W4); congruence|apply near_value with (1 := U4); congruence].
    - eexists. split; [reflexivity|]. unfold polyToComplexCRT. rewrite GG.
      split; [rewrite app_length, map_length, seq_length, skipn_length; lia|]. intros i Hi. destruct (IX i Hi) as [I1 I2].
      rewrite app_nth1 by (rewrite map_length, seq_length; exact Hi). rewrite nth_map_seq by exact Hi.
      destruct (gap_indices_spec (rN r) gap GP) as [J1 J2].
      assert (CS : forall j, (j * gap < rN r)%nat -> nth j (PolyToBigintLvl r (Level p) p gap) 0%Z = crt_value r (Level p) p (j * gap)).
      { intros j Hj. unfold PolyToBigintLvl. rewrite (nth_map_gen' _ _ _ O) by nia. rewrite (proj1 (J1 j ltac:(nia))). reflexivity. }
      assert (E3 : (2 ^ m + i * gap = (2 ^ L + i) * gap)%nat) by (rewrite HN2; ring).
      rewrite !CS by (try rewrite <- E3; assumption). rewrite <- E3.
      destruct (HD _ I1) as (A1 & A2 & A3). destruct (HD _ I2) as (B1 & B2 & B3).
      assert (CV1 := centred_value r (m + 1) (S lev) pt pool P Hr EN Sh Pl HM _ I1 A1). assert (CV2 := centred_value r (m + 1) (S lev) pt pool P Hr EN Sh Pl HM _ I2 B1). fold p in CV1, CV2. rewrite CV1, CV2.
      assert (N1 := near_scale_down s _ Hs A2 A3). assert (N2 := near_scale_down s _ Hs B2 B3). assert (T1 := near_le _ _ _ N1 A3). assert (T2 := near_le _ _ _ N2 B3).
      destruct (parts_sum _ _ (proj1 N1) (proj1 N2) T1 T2) as (Z1 & Z2 & Z3). split; [exact Z1|]. destruct Z1 as [Z11 Z12].
      split; [apply near_value with (1 := N1); assumption|apply near_value with (1 := N2); assumption]. }
  destruct BUF as (b & -> & Lb & CB).
  set (ws := map (fun z => (z / RtoC sv)%C) (packed (rN r) (2 ^ L) P)).
  assert (LPK : length (packed (rN r) (2 ^ L) P) = (2 ^ L)%nat) by (unfold packed; rewrite map_length, seq_length; reflexivity).
  assert (LW : length ws = (2 ^ L)%nat) by (unfold ws; rewrite map_length; exact LPK).
  assert (AC : all_close L A (A * (1 + rho)) b ws).
  { intros k Hk. destruct (CB k Hk) as (C1 & C2 & C3). unfold ws. rewrite (nth_map_gen' _ _ _ (RtoC 0)) by lia. rewrite PK by exact Hk.
    apply (quotient_close s A); try assumption; [|apply RP]. specialize (HP k Hk). rewrite PK in HP by exact Hk. exact HP. }
  assert (F2 : (1 + rho) ^ S L <= 2) by (unfold growth in HG; fold rho in HG; rewrite Nat.add_1_r in HG; lra).
  assert (FN := fft_numbers m L delta roots HR HL A b ws HA HB F2 ltac:(lia) ltac:(lia) AC).
  assert (TR : exists b', fft r roots (2 ^ L) b = Some b' /\ length b' = length b /\ forall k, (k < 2 ^ L)%nat -> nth k b' c_zero = nth k (SpecialFFTVec c_add c_sub c_mul c_zero b (2 ^ L) (2 ^ (m + 2)) (rotGroup (2 ^ (m + 2))) roots) c_zero).
  { unfold fft. rewrite E2. destruct (Nat.ltb_spec (2 ^ L) 8) as [H8|H8].
    - eexists. split; [reflexivity|]. split; [|reflexivity]. unfold SpecialFFTVec. rewrite !Nat.log2_pow2 by lia. rewrite <- (proj1 (bit_reverse c_zero L b ltac:(lia))).
      assert (RL : forall ls, (forall l, In l ls -> (0 < l <= L)%nat) -> forall xs, (2 ^ L <= length xs)%nat -> length (fold_left (fun xs loglen => fft_round c_add c_sub c_mul c_zero (2 ^ L) (m + 2) loglen (rotGroup (2 ^ (m + 2))) roots xs) ls xs) = length xs).
      { induction ls as [|l ls IH]; intros IN xs Hx; [reflexivity|]. cbn [fold_left]. assert (Hl := IN l (or_introl eq_refl)).
        assert (E3 : (2 ^ L = 2 ^ (L - l) * 2 ^ l)%nat) by (rewrite <- Nat.pow_add_r; f_equal; lia).
        destruct (fft_round_spec c_zero c_add c_sub c_mul (m + 2) (rotGroup (2 ^ (m + 2))) roots (2 ^ (L - l)) l xs ltac:(lia) ltac:(lia)) as [L1 _]. rewrite <- E3 in L1.
        rewrite IH; [exact L1|intros; apply IN; right; assumption|lia]. }
      apply RL; [intros l Hl; apply in_seq in Hl; lia|]. destruct (bit_reverse c_zero L b ltac:(lia)) as [-> _]. lia.
    - assert (H3 : (3 <= L)%nat) by (apply (Nat.pow_le_mono_r_iff 2); [lia|exact H8]).
      apply (fft_unrolled c_add c_sub c_mul c_zero (m + 2)); [exact H3|apply Nat.log2_pow2; lia|]. rewrite Lb, <- LB. specialize (H16 H3).
      destruct (Nat.eq_dec L 3) as [->|]; [change ((2 ^ 3 + 15) / 16 * 16)%nat with 16%nat; lia|].
      replace (2 ^ L)%nat with (2 ^ (L - 4) * 16)%nat in LM |- * by (change 16%nat with (2 ^ 4)%nat; rewrite <- Nat.pow_add_r; f_equal; lia).
      rewrite Nat.div_add_l by lia. change (15 / 16)%nat with 0%nat. lia. }
  destruct TR as (b' & -> & Lb' & Nb'). eexists. split; [reflexivity|]. split; [rewrite firstn_length; lia|].
  intros k Hk. unfold value_at. rewrite nth_firstn by exact Hk. rewrite Nb' by exact Hk. destruct (FN k Hk) as [FN1 FN2]. split; [exact FN1|].
  replace (slot (rN r) (in_gap gap P) k / RtoC sv)%C with (nth k (SpecialFFTVec Cplus Cminus Cmult (RtoC 0) ws (2 ^ L) (2 ^ (m + 2)) (rotGroup (2 ^ (m + 2))) (exact_roots (2 ^ (m + 2)))) (RtoC 0)).
  { rewrite Nat.add_1_r. exact FN2. }
  assert (PG : packed (rN r) (2 ^ L) (in_gap gap P) = packed (rN r) (2 ^ L) P).
  { unfold packed. apply map_ext. intros i. rewrite G2, EH, HN2. unfold in_gap. rewrite <- Nat.mul_add_distr_r, !Nat.mod_mul by lia. reflexivity. }
  assert (TS := transform_slots m L (in_gap gap P) HL ltac:(intros i _ Hi; unfold in_gap; fold gap in Hi; rewrite (proj2 (Nat.eqb_neq _ _) Hi); reflexivity)). rewrite <- EN, PG in TS.
  assert (NE := exact_near m L HL ws (packed (rN r) (2 ^ L) P) (/ RtoC sv)%C 0 k ltac:(lia) ltac:(lia) Hk).
  rewrite Rmult_0_r in NE. rewrite TS in NE. rewrite nth_map_seq in NE by exact Hk.
  assert (Z : forall x y : C, Cmod (x - y)%C <= 0 -> x = y).
  { intros x y H. assert (X : Cmod (x - y)%C = 0) by (pose proof (Cmod_ge_0 (x - y)%C); lra). apply Cmod_eq_0 in X. replace x with (Cplus y (Cminus x y)) by (unfold Cminus; ring). rewrite X. ring. }
  rewrite (Z _ _ (NE ltac:(intros t Ht; unfold ws; rewrite (nth_map_gen' _ _ _ (RtoC 0)) by lia; unfold Cdiv, Cminus; replace (Cplus _ _) with (RtoC 0) by ring; rewrite Cmod_R, Rabs_R0; lra))).
  unfold Cdiv. ring.
Qed.

Lemma decode_slots m L r delta roots buf pool pt level P A : built_ring 8 r -> encoder_shape m L r delta roots buf -> (3 <= L -> 16 <= length buf)%nat ->
  pt_shape r level pt -> pool_shape r pool -> scale_ok (ptScale pt) -> rns_dom r (m + 1) level (ptNTT pt) (ptV pt) P -> sparse (rN r) (2 ^ (m - L)) P ->
  (forall k, (k < rN r)%nat -> decodable (lprod r level) (P k) (ptScale pt)) ->
  1 <= A -> 2 ^ L * A <= IZR (2 ^ 900) -> (forall k, (k < 2 ^ L)%nat -> Cmod (nth k (packed (rN r) (2 ^ L) P) (RtoC 0)) <= A * B2R (ptScale pt)) ->
  growth delta (L + 1) <= 1 ->
  exists out, Decode r roots buf pool pt L = Some out /\ length out = (2 ^ L)%nat /\
    forall k, (k < 2 ^ L)%nat -> cfinite (nth k out c_zero) /\
      Cmod (value_at out k - slot (rN r) P k / RtoC (B2R (ptScale pt)))%C <= 2 ^ L * A * growth delta (L + 1).
Proof.
  intros Hr ES H16 Sh Pl Hs HM HSp HD HA HB HP HG. destruct (decode_any m L r delta roots buf pool pt level P A Hr ES H16 Sh Pl Hs HM HD HA HB HP HG) as (out & E1 & E2 & E3).
  exists out. split; [exact E1|]. split; [exact E2|]. intros k Hk. destruct (E3 k Hk) as [F1 F2]. split; [exact F1|].
  replace (slot (rN r) P k) with (slot (rN r) (in_gap (2 ^ (m - L)) P) k); [exact F2|]. unfold slot. apply (FftRing.sum_ext (RtoC 0) Cplus). intros i Hi. do 3 f_equal.
  unfold in_gap. destruct (Nat.eqb_spec (i mod 2 ^ (m - L)) 0); [reflexivity|]. symmetry. apply HSp; assumption.
Qed.

(** ** Both ways *)
Lemma slots_round_trip m L r delta roots buf pool vals level s A : built_ring 8 r -> encoder_shape m L r delta roots buf -> (3 <= L)%nat -> (16 <= length buf)%nat ->
  (level < length (rmods r))%nat -> pool_shape r pool -> scale_ok s -> 1 <= B2R s -> values_ok L A vals -> 4 * (B2R s * A) <= IZR (2 ^ 64) ->
  4 * (B2R s * A) + 6 <= IZR (lprod r level) -> growth delta (L + 2) <= 1 ->
  exists pt out, EncodeNew r roots buf vals level s L = Some pt /\ Decode r roots buf pool pt L = Some out /\ length out = (2 ^ L)%nat /\
    forall k, (k < 2 ^ L)%nat -> cfinite (nth k out c_zero) /\
      Cmod (value_at out k - value_at vals k)%C <= 2 ^ L * (2 / B2R s + 5 * A * growth delta (L + 2)).
Proof.
  intros Hr HE H3 H16 Hl Pl Hs S1 HV HS HQ HG. unfold EncodeNew.
  destruct (encode_slots m L r delta roots buf vals (NewPlaintext r level s) level A Hr HE H3 H16 (new_shape r level s Hl) Hs HV HS HG)
    as (pt & P & E1 & E2 & E3 & E4 & E5 & E6 & E7 & E8 & E9).
  unfold NewPlaintext in E2, E3, E7, E8, E9. cbn [ptScale ptNTT] in E2, E3, E7, E8, E9. set (sv := B2R s) in *.
  destruct HE as (EN & HL & LB & HR). destruct HV as (V1 & V2 & V3 & V4).
  assert (SA : 1 <= sv * A) by (apply Rle_trans with (1 * A); [lra|apply Rmult_le_compat_r; lra]).
  assert (AS : A <= sv * A) by (apply Rle_trans with (1 * A); [lra|apply Rmult_le_compat_r; lra]).
  assert (F := f_mono m delta roots HR (L + 1) (L + 2) ltac:(lia)).
  assert (GR : 0 <= growth delta (L + 1) <= growth delta (L + 2)) by (unfold growth; lra).
  assert (L64 : (2 ^ L <= IZR (2 ^ 64))).
  { destruct (built_8 r Hr 0 ltac:(lia)) as [Q1 Q2]. assert (D := wf_cong _ _ (built_wf r (m + 1) (built_2 r Hr) EN 0%nat ltac:(lia))). apply Z.divide_pos_le in D; [|lia].
    rewrite <- INR_2. rewrite INR_IZR_INZ. apply IZR_le. rewrite Nat2Z.inj_pow. change (Z.of_nat 2) with 2%Z. change W with (2 ^ 64)%Z in Q2.
    apply Z.le_trans with (2 ^ Z.of_nat (S (m + 1)))%Z; [apply Z.pow_le_mono_r; lia|lia]. }
  assert (B4 : 2 ^ L * (4 * A) <= IZR (2 ^ 900)).
  { apply Rle_trans with (IZR (2 ^ 64) * IZR (2 ^ 64)).
    - apply Rmult_le_compat; [apply pow_le; lra|lra|exact L64|lra].
    - rewrite <- mult_IZR. apply IZR_le. apply Z.leb_le. reflexivity. }
  assert (PB : 2 * (sv * A) + 2 <= 4 * A * sv) by lra.
  destruct (decode_slots m L r delta roots buf pool pt level P (4 * A) Hr (conj EN (conj HL (conj LB HR))) (fun _ => H16) E4 Pl) as (out & D1 & D2 & D3).
  - rewrite E2. exact Hs.
  - rewrite E3. exact E5.
  - exact E6.
  - intros k Hk. rewrite E2. specialize (E7 k Hk). assert (T900 : IZR (2 ^ 64) <= IZR (2 ^ 1000)) by (apply IZR_le; apply Z.pow_le_mono_r; lia).
    destruct Hs as [_ Ps]. fold sv in Ps.
    split; [|split].
    + assert (X : 2 * Rabs (IZR (P k)) < IZR (lprod r level) - 1) by lra. rewrite <- abs_IZR in X.
      assert (2 * Z.abs (P k) < lprod r level - 1)%Z; [|lia]. apply lt_IZR. rewrite mult_IZR, minus_IZR. exact X.
    + lra.
    + fold sv. apply Rle_trans with (4 * A); [|lra]. unfold Rdiv. rewrite Rabs_mult, (Rabs_pos_eq (/ sv)) by (apply Rlt_le, Rinv_0_lt_compat; exact Ps).
      apply Rmult_le_reg_r with sv; [exact Ps|]. rewrite Rmult_assoc, Rinv_l by (apply Rgt_not_eq; exact Ps). lra.
  - lra.
  - exact B4.
  - intros k Hk. rewrite E2. fold sv. apply Rle_trans with (1 := E8 k Hk). lra.
  - lra.
  - exists pt, out. split; [exact E1|]. split; [exact D1|]. split; [exact D2|]. intros k Hk. destruct (D3 k Hk) as [F1 F2]. split; [exact F1|]. rewrite E2 in F2. fold sv in F2.
    specialize (E9 k Hk). assert (Ps : 0 < sv) by lra.
    assert (SL : Cmod (slot (rN r) P k / RtoC sv - value_at vals k)%C <= 2 ^ L * (2 / sv + A * growth delta (L + 2))).
    { replace (slot (rN r) P k / RtoC sv - value_at vals k)%C with (Cmult (RtoC (/ sv)) (slot (rN r) P k - RtoC sv * value_at vals k)%C).
      - rewrite Cmod_mult, Cmod_R, Rabs_pos_eq by (apply Rlt_le, Rinv_0_lt_compat; exact Ps). apply Rmult_le_reg_l with sv; [exact Ps|]. rewrite <- Rmult_assoc, Rinv_r by lra. rewrite Rmult_1_l.
        apply Rle_trans with (1 := E9). apply Req_le. field. lra.
      - rewrite RtoC_inv by lra. unfold Cdiv, Cminus. field. intros X. apply RtoC_inj in X. lra. }
    apply Rle_trans with (1 := Cmod_via _ _ _ _ _ F2 SL).
    assert (P2 : 0 <= 2 ^ L) by (apply pow_le; lra).
    assert (2 ^ L * (4 * A) * growth delta (L + 1) <= 2 ^ L * (4 * A) * growth delta (L + 2)) by (apply Rmult_le_compat_l; [apply Rmult_le_pos; lra|lra]). lra.
Qed.
